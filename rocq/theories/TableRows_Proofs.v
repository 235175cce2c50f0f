(** Adding rows, concatenation, mapping, single rows. *)
From Coq Require Import List Bool Arith ZArith Lia Sorted Permutation.
Import ListNotations.
From Verif Require Import Base Simd_Spec Vector_Spec Vector_Model Vector_Proofs Simd_Model Simd_Proofs Table_Model Table_Spec Table_Proofs.
Local Open Scope Z_scope.

(** Row sets one after the other. *)
Fixpoint join (rs given : list (nat * list Z)) : list (nat * list Z) :=
  match rs, given with
  | (s, a) :: rs', (_, b) :: given' => (s, a ++ b) :: join rs' given'
  | _, _ => []
  end.
Lemma join_fst rs : forall given, length given = length rs -> map fst (join rs given) = map fst rs.
Proof.
  induction rs as [|[s a] rs IH]; intros [|[s' b] given] L; try discriminate; auto. cbn. f_equal. apply IH. now injection L.
Qed.
Lemma join_count rs given : length given = length rs -> count_of (join rs given) = (count_of rs + count_of given)%nat.
Proof. destruct rs as [|[s a] rs], given as [|[s' b] given]; intros L; try discriminate; auto. cbn. apply app_length. Qed.
Lemma join_aligned rs given : length given = length rs -> aligned_rows rs -> aligned_rows given -> aligned_rows (join rs given).
Proof.
  intros L A1 A2 r H. rewrite join_count by auto. unfold aligned_rows in *. revert H A1 A2.
  generalize (count_of rs) (count_of given). intros n1 n2. revert given L.
  induction rs as [|[s a] rs IH]; intros [|[s' b] given] L H A1 A2; try easy. cbn in H. destruct H as [<-|H].
  - pose proof (A1 (s, a) (or_introl eq_refl)). pose proof (A2 (s', b) (or_introl eq_refl)). cbn [snd] in *. rewrite app_length. lia.
  - apply (IH given); auto. { intros r' H'. apply A1. now right. } { intros r' H'. apply A2. now right. }
Qed.
Lemma join_record rs given : forall i n, length given = length rs -> (forall r, In r rs -> length (snd r) = n) ->
  record_at (join rs given) i = if Nat.ltb i n then record_at rs i else record_at given (i - n).
Proof.
  revert given. induction rs as [|[s a] rs IH]; intros [|[s' b] given] i n L A; try discriminate.
  - now destruct (Nat.ltb i n).
  - unfold record_at in *. cbn [join map]. rewrite (IH given i n); [|now injection L|intros r H; apply A; now right].
    pose proof (A (s, a) (or_introl eq_refl)) as La. cbn [snd] in *. destruct (Nat.ltb_spec i n); cbn [map snd]; f_equal.
    + apply app_nth1. lia.
    + rewrite app_nth2 by lia. now rewrite La.
Qed.
Lemma join_records rs given : length given = length rs -> aligned_rows rs ->
  records_of (join rs given) = records_of rs ++ records_of given.
Proof.
  intros L A. unfold records_of. rewrite join_count by auto. rewrite seq_app, map_app. f_equal.
  - apply map_ext_in. intros i Hi. apply in_seq in Hi. rewrite (join_record rs given i (count_of rs)) by auto.
    now rewrite (proj2 (Nat.ltb_lt _ _)) by lia.
  - cbn [plus]. apply (list_ext _ _ []); rewrite ?map_length, ?seq_length; auto. intros k Hk.
    rewrite !(nth_map_lt _ _ _ _ 0%nat) by (rewrite seq_length; auto). rewrite !seq_nth by auto.
    rewrite (join_record rs given _ (count_of rs)) by auto. rewrite (proj2 (Nat.ltb_ge _ _)) by lia. f_equal. lia.
Qed.

(** ** AddRows *)
Lemma append_ok n : (0 < n)%nat -> forall rs given c, map fst given = map fst rs -> (forall g, In g given -> length (snd g) = n) ->
  (c = 0 \/ c = n)%nat -> append_each rs given c = (join rs given, true).
Proof.
  intros Hn. induction rs as [|[s a] rs IH]; intros [|[s' b] given] c F L C; try discriminate; auto.
  cbn [append_each map fst] in *. injection F as -> F. rewrite Nat.eqb_refl. cbn [negb].
  pose proof (L (s, b) (or_introl eq_refl)) as Lb. cbn [snd] in Lb. rewrite Lb.
  rewrite (IH given).
  - cbn [join]. destruct C as [->| ->]; [now rewrite Nat.eqb_refl|]. rewrite Nat.eqb_refl, andb_false_r. reflexivity.
  - auto.
  - intros g H. apply L. now right.
  - right. destruct C as [->| ->]; [reflexivity|]. destruct (Nat.eqb_spec n 0); auto.
Qed.
Lemma append_true : forall rs given c rs', length given = length rs -> (forall g, In g given -> length (snd g) <> 0%nat) ->
  append_each rs given c = (rs', true) ->
  map fst given = map fst rs /\ exists n, (0 < n)%nat /\ (c = 0 \/ c = n)%nat /\ forall g, In g given -> length (snd g) = n.
Proof.
  induction rs as [|[s a] rs IH]; intros [|[s' b] given] c rs' L NZ E; try discriminate.
  - split; auto. destruct c; [exists 1%nat|exists (S c)]; repeat split; try lia; intros g [].
  - cbn [append_each] in E. destruct (Nat.eqb_spec s s') as [->|]; [|discriminate]. cbn [negb] in E.
    destruct (negb (Nat.eqb c 0) && negb (Nat.eqb c (length b))) eqn:C; [discriminate|].
    destruct (append_each rs given _) as [rest ok] eqn:R. injection E as <- ->.
    pose proof (NZ (s', b) (or_introl eq_refl)) as Nb. cbn [snd] in Nb.
    apply IH in R; [|now injection L|intros g H; apply NZ; now right].
    destruct R as (F & n & Hn & Cn & Ln). split; [cbn; now rewrite F|]. exists n. split; auto.
    destruct (Nat.eqb_spec c 0).
    + destruct Cn as [Cn|Cn]; [contradiction|]. split; [now left|]. intros g [<-|H]; auto.
    + cbn in C. apply negb_false_iff, Nat.eqb_eq in C. destruct Cn as [Cn|Cn]; [contradiction|]. split; [now right|].
      intros g [<-|H]; auto. cbn. lia.
Qed.
Section T.
Context {V : Type}.
Notation table := (@table V).

Lemma existsb_false {A} (f : A -> bool) l : existsb f l = false <-> forall x, In x l -> f x = false.
Proof.
  induction l as [|a l IH]; cbn; [split; [intros _ x []|auto]|]. rewrite orb_false_iff, IH. split.
  - intros (E & H) x [<-|Hx]; auto.
  - intros H. split; auto.
Qed.
Lemma existsb_in s l : existsb (Nat.eqb s) l = true <-> In s l.
Proof. rewrite existsb_exists. split; [intros (x & H & E); apply Nat.eqb_eq in E; now subst|intros H; exists s; now rewrite Nat.eqb_refl]. Qed.

Lemma of_schema_len (t : table) : of_schema t -> length (t_rows t) = length (sc_rows (t_schema t)).
Proof. intros (E & _). rewrite <- E. now rewrite map_length. Qed.

Lemma AddRows_true given (t : table) : of_schema t -> acceptable given (t_schema t) ->
  AddRows given t = (UnloadAll (with_rows (join (t_rows t) given) t), true).
Proof.
  intros O (F & n & Hn & L). unfold AddRows.
  rewrite (proj2 (existsb_false _ _)).
  - rewrite <- F, map_length, Nat.eqb_refl. cbn [negb]. rewrite (append_ok n Hn); auto.
    destruct O as (O & _). now rewrite O.
  - intros g H. rewrite (L g H). destruct (Nat.eqb_spec n 0); [lia|]. cbn [orb]. apply negb_false_iff, existsb_in.
    rewrite <- F. now apply in_map.
Qed.
Lemma AddRows_accepts given (t t' : table) : of_schema t -> AddRows given t = (t', true) -> acceptable given (t_schema t).
Proof.
  intros O E. unfold AddRows in E. destruct (existsb _ given) eqn:X; [discriminate|].
  destruct (Nat.eqb_spec (length given) (length (sc_rows (t_schema t)))) as [L|]; [|discriminate]. cbn [negb] in E.
  destruct (append_each _ given 0) as [rs ok] eqn:A. destruct ok; [|discriminate].
  apply append_true in A.
  - destruct A as (F & n & Hn & _ & Ln). destruct O as (O & _). rewrite O in F. split; eauto.
  - rewrite L. symmetry. now apply of_schema_len.
  - intros g H. rewrite existsb_false in X. apply X, orb_false_iff in H. destruct H as (H & _). now apply Nat.eqb_neq in H.
Qed.
Lemma acceptable_aligned given (sc : schema) : acceptable given sc -> aligned_rows given.
Proof.
  intros (_ & n & _ & L) r H. rewrite (L r H). destruct given as [|[s b] given]; [easy|]. symmetry. exact (L (s, b) (or_introl eq_refl)).
Qed.
Lemma AddRows_ok given (t : table) : of_schema t -> aligned t -> acceptable given (t_schema t) ->
  exists t', AddRows given t = (t', true) /\ t_schema t' = t_schema t /\ of_schema t' /\ aligned t' /\
    records t' = records t ++ records_of given.
Proof.
  intros O A AC. rewrite AddRows_true by auto. eexists. split; [reflexivity|]. split; [reflexivity|].
  assert (L : length given = length (t_rows t)).
  { rewrite of_schema_len by auto. destruct AC as (F & _). now rewrite <- F, map_length. }
  split; [|split].
  - unfold of_schema. cbn. rewrite join_fst by auto. rewrite map_length. exact O.
  - apply join_aligned; auto. now apply (acceptable_aligned given (t_schema t)).
  - now apply join_records.
Qed.
(** One row type: all or nothing. *)
Lemma AddRows_single given (t t' : table) s : of_schema t -> sc_rows (t_schema t) = [s] -> AddRows given t = (t', false) -> t' = t.
Proof.
  intros (O & _) S E. unfold AddRows in E. destruct (existsb _ given); [now injection E|].
  destruct (negb _) eqn:N; [now injection E|]. rewrite S in *. destruct given as [|[s' b] [|g given]]; try discriminate.
  destruct (t_rows t) as [|[s0 a] [|r rs]] eqn:R; try discriminate. cbn in E.
  destruct (negb (Nat.eqb s0 s')); cbn in E; [|discriminate]. injection E as <-. destruct t; cbn in *. now rewrite <- R.
Qed.

(** ** InsertRow *)
Fixpoint inserted (pos : nat) (rs : list (nat * list Z)) (given : list (nat * Z)) : list (nat * list Z) :=
  match rs, given with
  | (s, objs) :: rs', (_, p) :: given' => (s, firstn pos objs ++ p :: skipn pos objs) :: inserted pos rs' given'
  | _, _ => []
  end.
Lemma inserted_fst pos rs : forall given, length given = length rs -> map fst (inserted pos rs given) = map fst rs.
Proof.
  induction rs as [|[s a] rs IH]; intros [|[s' b] given] L; try discriminate; auto. cbn. f_equal. apply IH. now injection L.
Qed.
Lemma insert_len {A} pos (l : list A) p : length (firstn pos l ++ p :: skipn pos l) = S (length l).
Proof. rewrite app_length. cbn. rewrite <- plus_n_Sm. f_equal. rewrite <- app_length. now rewrite firstn_skipn. Qed.
Lemma inserted_len n pos rs : forall given, length given = length rs -> (forall r, In r rs -> length (snd r) = n) ->
  forall r, In r (inserted pos rs given) -> length (snd r) = S n.
Proof.
  induction rs as [|[s a] rs IH]; intros [|[s' b] given] L A r H; try easy. cbn [inserted] in H. destruct H as [<-|H].
  - cbn [snd]. rewrite insert_len. f_equal. apply (A (s, a)). now left.
  - apply (IH given); auto. intros r' H'. apply A. now right.
Qed.
Lemma inserted_count pos rs given : length given = length rs -> rs <> [] -> count_of (inserted pos rs given) = S (count_of rs).
Proof. destruct rs as [|[s a] rs], given as [|[s' b] given]; intros L N; try easy. cbn. apply insert_len. Qed.
Lemma inserted_record n pos rs : (pos <= n)%nat -> forall given i, length given = length rs -> (forall r, In r rs -> length (snd r) = n) ->
  record_at (inserted pos rs given) i =
    if Nat.ltb i pos then record_at rs i else if Nat.eqb i pos then map snd given else record_at rs (i - 1).
Proof.
  intros P. induction rs as [|[s a] rs IH]; intros [|[s' b] given] i L A; try discriminate.
  - unfold record_at. cbn [inserted map]. destruct (Nat.ltb i pos), (Nat.eqb i pos); reflexivity.
  - unfold record_at in *. cbn [inserted map]. rewrite (IH given i); [|now injection L|intros r H; apply A; now right].
    pose proof (A (s, a) (or_introl eq_refl)) as La. cbn [snd] in *.
    destruct (Nat.ltb_spec i pos); [|destruct (Nat.eqb_spec i pos)]; cbn [map snd]; f_equal.
    + rewrite app_nth1 by (rewrite firstn_length; lia). apply nth_firstn. lia.
    + rewrite app_nth2 by (rewrite firstn_length; lia). rewrite firstn_length. replace (i - _)%nat with 0%nat by lia. reflexivity.
    + rewrite app_nth2 by (rewrite firstn_length; lia). rewrite firstn_length.
      replace (i - _)%nat with (S (i - pos - 1))%nat by lia. cbn [nth]. rewrite nth_skipn. f_equal. lia.
Qed.
Lemma inserted_records pos rs given : length given = length rs -> rs <> [] -> aligned_rows rs -> (pos <= count_of rs)%nat ->
  records_of (inserted pos rs given) = firstn pos (records_of rs) ++ map snd given :: skipn pos (records_of rs).
Proof.
  intros L N A P. assert (LR : length (records_of rs) = count_of rs) by (unfold records_of; now rewrite map_length, seq_length).
  apply (list_ext _ _ []).
  - rewrite insert_len, LR. unfold records_of. now rewrite map_length, seq_length, inserted_count.
  - intros i Hi. unfold records_of in Hi. rewrite map_length, seq_length, inserted_count in Hi by auto.
    rewrite nth_records by (rewrite inserted_count; auto). rewrite (inserted_record (count_of rs)) by auto.
    destruct (Nat.ltb_spec i pos); [|destruct (Nat.eqb_spec i pos)].
    + rewrite app_nth1 by (rewrite firstn_length; lia). rewrite nth_firstn by lia. now rewrite nth_records by lia.
    + rewrite app_nth2 by (rewrite firstn_length; lia). rewrite firstn_length, LR. replace (i - Nat.min pos (count_of rs))%nat with 0%nat by lia. reflexivity.
    + rewrite app_nth2 by (rewrite firstn_length; lia). rewrite firstn_length, LR.
      replace (i - Nat.min pos (count_of rs))%nat with (S (i - pos - 1))%nat by lia. cbn [nth]. rewrite nth_skipn.
      replace (pos + (i - pos - 1))%nat with (i - 1)%nat by lia. now rewrite nth_records by lia.
Qed.
Lemma insert_each_ok n pos : (pos <= n)%nat -> forall rs given, map fst given = map fst rs -> (forall r, In r rs -> length (snd r) = n) ->
  insert_each pos rs given = (inserted pos rs given, true).
Proof.
  intros P. induction rs as [|[s a] rs IH]; intros [|[s' b] given] F A; try discriminate; auto.
  cbn [insert_each map fst] in *. injection F as -> F. rewrite Nat.eqb_refl. cbn [negb].
  pose proof (A (s, a) (or_introl eq_refl)) as La. cbn [snd] in La.
  rewrite (proj2 (Nat.ltb_ge _ _)) by lia. rewrite IH; auto. intros r H. apply A. now right.
Qed.
Lemma insert_each_true pos : forall rs given rs', length given = length rs -> insert_each pos rs given = (rs', true) ->
  map fst given = map fst rs /\ forall r, In r rs -> (pos <= length (snd r))%nat.
Proof.
  induction rs as [|[s a] rs IH]; intros [|[s' b] given] rs' L E; try discriminate.
  - split; auto. intros r [].
  - cbn [insert_each] in E. destruct (Nat.eqb_spec s s') as [->|]; [|discriminate]. cbn [negb] in E.
    destruct (Nat.ltb_spec (length a) pos); [discriminate|]. destruct (insert_each pos rs given) as [rest ok] eqn:R.
    injection E as <- ->. apply IH in R; [|now injection L]. destruct R as (F & R). split; [cbn; now rewrite F|].
    intros r [<-|Hr]; auto.
Qed.
Lemma InsertRow_ok pos given (t : table) : of_schema t -> aligned t -> sc_rows (t_schema t) <> [] ->
  map fst given = sc_rows (t_schema t) -> (pos <= Count t)%nat ->
  exists t', InsertRow pos given t = (t', true) /\ t_schema t' = t_schema t /\ of_schema t' /\ aligned t' /\
    records t' = firstn pos (records t) ++ map snd given :: skipn pos (records t).
Proof.
  intros O A NE F P. unfold InsertRow. rewrite (proj2 (existsb_false _ _)).
  2:{ intros g H. apply negb_false_iff, existsb_in. rewrite <- F. now apply in_map. }
  rewrite <- F, map_length, Nat.eqb_refl. cbn [negb].
  assert (L : length given = length (t_rows t)). { rewrite of_schema_len by auto. now rewrite <- F, map_length. }
  assert (N : t_rows t <> []). { intros E. destruct O as (O & _). rewrite E in O. cbn in O. now rewrite <- O in NE. }
  rewrite (insert_each_ok (Count t)); auto; [|destruct O as (O & _); now rewrite O].
  eexists. split; [reflexivity|]. split; [reflexivity|]. split; [|split].
  - unfold of_schema. cbn. rewrite inserted_fst by auto. rewrite map_length. exact O.
  - intros r H. cbn in H |- *. rewrite inserted_count by auto. now apply (inserted_len (count_of (t_rows t))) in H.
  - now apply inserted_records.
Qed.
Lemma InsertRow_accepts pos given (t t' : table) : of_schema t -> sc_rows (t_schema t) <> [] -> InsertRow pos given t = (t', true) ->
  map fst given = sc_rows (t_schema t) /\ (pos <= Count t)%nat.
Proof.
  intros O NE E. unfold InsertRow in E. destruct (existsb _ given) eqn:X; [discriminate|].
  destruct (Nat.eqb_spec (length given) (length (sc_rows (t_schema t)))) as [L|]; [|discriminate]. cbn [negb] in E.
  destruct (insert_each pos _ given) as [rs ok] eqn:A. destruct ok; [|discriminate].
  apply insert_each_true in A.
  - destruct O as (O & _). rewrite O in A. destruct A as (F & A). split; auto. unfold Count.
    destruct (t_rows t) as [|[s a] rs0]; [cbn in O; now rewrite <- O in NE|]. exact (A (s, a) (or_introl eq_refl)).
  - rewrite L. symmetry. now apply of_schema_len.
Qed.
Lemma InsertRow_single pos given (t t' : table) s : of_schema t -> sc_rows (t_schema t) = [s] -> InsertRow pos given t = (t', false) -> t' = t.
Proof.
  intros (O & _) S E. unfold InsertRow in E. destruct (existsb _ given); [now injection E|].
  destruct (negb _) eqn:N; [now injection E|]. rewrite S in *. destruct given as [|[s' b] [|g given]]; try discriminate.
  destruct (t_rows t) as [|[s0 a] [|r rs]] eqn:R; try discriminate. cbn [insert_each] in E.
  destruct (negb (Nat.eqb s0 s')).
  { injection E as <-. destruct t; cbn in *. now rewrite <- R. }
  destruct (Nat.ltb (length a) pos); [|discriminate]. injection E as <-. destruct t; cbn in *. now rewrite <- R.
Qed.

(** A refused call on a table of two or more row types has changed the first ones. *)
Lemma AddRows_torn (t : table) s1 s2 rest a b more : of_schema t -> aligned t -> sc_rows (t_schema t) = s1 :: s2 :: rest ->
  a <> [] -> b <> [] -> length a <> length b -> map fst more = rest -> (forall g, In g more -> snd g <> []) ->
  exists t', AddRows ((s1, a) :: (s2, b) :: more) t = (t', false) /\ ~ aligned t' /\ Count t' = (Count t + length a)%nat.
Proof.
  intros O A S Na Nb D M NM. unfold AddRows. rewrite S. cbn [length].
  rewrite (proj2 (existsb_false _ _)).
  - rewrite <- M, map_length, Nat.eqb_refl. cbn [negb].
    destruct (t_rows t) as [|[s1' o1] [|[s2' o2] rs]] eqn:R; try (destruct O as (O & _); rewrite R, S in O; discriminate).
    assert (s1' = s1 /\ s2' = s2) as (-> & ->). { destruct O as (O & _). rewrite R, S in O. now injection O. }
    cbn [append_each]. rewrite !Nat.eqb_refl. cbn [negb andb].
    assert (La : length a <> 0%nat) by (destruct a; easy). rewrite (proj2 (Nat.eqb_neq _ _) La), (proj2 (Nat.eqb_neq _ _) D). cbn [negb andb].
    eexists. split; [reflexivity|]. unfold aligned, aligned_rows, Count. cbn. rewrite R. split.
    + intros X. pose proof (X (s2, o2) ltac:(right; now left)) as Y. cbn in Y. rewrite app_length in Y.
      pose proof (A (s2, o2)) as Z. unfold aligned_rows in Z. rewrite R in Z. specialize (Z ltac:(right; now left)). cbn in Z. lia.
    + apply app_length.
  - intros g H. apply orb_false_iff. split.
    + destruct H as [<-|[<-|H]]; cbn; [destruct a; easy|destruct b; easy|]. specialize (NM g H). destruct (snd g); easy.
    + apply negb_false_iff, existsb_in. destruct H as [<-|[<-|H]]; cbn; auto. right. right. rewrite <- M. now apply in_map.
Qed.
Lemma InsertRow_torn (t : table) s1 s2 rest p q more pos : of_schema t -> aligned t -> sc_rows (t_schema t) = s1 :: s2 :: rest ->
  s1 <> s2 -> (pos <= Count t)%nat -> length more = length rest -> (forall g, In g more -> In (fst g) (sc_rows (t_schema t))) ->
  exists t', InsertRow pos ((s1, p) :: (s1, q) :: more) t = (t', false) /\ ~ aligned t' /\ Count t' = S (Count t).
Proof.
  intros O A S D P M NM. unfold InsertRow. rewrite S. cbn [length].
  rewrite (proj2 (existsb_false _ _)).
  - rewrite <- M, Nat.eqb_refl. cbn [negb].
    destruct (t_rows t) as [|[s1' o1] [|[s2' o2] rs]] eqn:R; try (destruct O as (O & _); rewrite R, S in O; discriminate).
    assert (s1' = s1 /\ s2' = s2) as (-> & ->). { destruct O as (O & _). rewrite R, S in O. now injection O. }
    cbn [insert_each]. rewrite !Nat.eqb_refl. cbn [negb andb]. unfold Count in P. rewrite R in P.
    rewrite (proj2 (Nat.ltb_ge _ _)) by lia.
    rewrite (proj2 (Nat.eqb_neq s2 s1)) by auto. cbn [negb].
    eexists. split; [reflexivity|]. unfold aligned, aligned_rows, Count. cbn. rewrite R. split.
    + intros X. pose proof (X (s2, o2) ltac:(right; now left)) as Y. cbn in Y. rewrite insert_len in Y.
      pose proof (A (s2, o2)) as Z. unfold aligned_rows in Z. rewrite R in Z. specialize (Z ltac:(right; now left)). cbn in Z. lia.
    + apply insert_len.
  - intros g H. apply negb_false_iff, existsb_in. destruct H as [<-|[<-|H]]; cbn; auto. specialize (NM g H). now rewrite S in NM.
Qed.

(** ** Concat *)
Lemma find_nodup rs s o : NoDup (map fst rs) -> In (s, o) rs -> find_rows rs s = Some o.
Proof.
  induction rs as [|[s' o'] rs IH]; intros N H; [easy|]. cbn in N |- *. inversion N as [|? ? NI N']; subst.
  destruct H as [E|H]. { injection E as -> ->. now rewrite Nat.eqb_refl. }
  destruct (Nat.eqb_spec s' s) as [->|]; auto. exfalso. apply NI. change s with (fst (s, o)). now apply in_map.
Qed.
Lemma concat_join rs given : NoDup (map fst rs) -> map fst given = map fst rs ->
  map (fun r => match find_rows given (fst r) with Some objs => (fst r, snd r ++ objs) | None => r end) rs = join rs given.
Proof.
  intros N F. assert (G : forall r g, In r rs -> In g given -> fst r = fst g -> find_rows given (fst r) = Some (snd g)).
  { intros r [s o] _ H E. rewrite E. apply find_nodup; [now rewrite F|auto]. }
  assert (X : forall rs1 given1, incl rs1 rs -> incl given1 given -> map fst given1 = map fst rs1 ->
    map (fun r => match find_rows given (fst r) with Some objs => (fst r, snd r ++ objs) | None => r end) rs1 = join rs1 given1).
  { induction rs1 as [|[s a] rs1 IH]; intros [|[s' b] given1] I1 I2 F1; try discriminate; auto. cbn [map join].
    injection F1 as E F1. rewrite (G (s, a) (s', b)); [|apply I1; now left|apply I2; now left|now symmetry]. cbn [fst snd]. f_equal.
    apply IH; auto. { intros x H. apply I1. now right. } { intros x H. apply I2. now right. } }
  apply X; auto; intros x H; auto.
Qed.
Lemma Concat_ok (other t : table) : of_schema t -> of_schema other -> t_schema other = t_schema t -> NoDup (sc_rows (t_schema t)) ->
  aligned t -> aligned other ->
  exists t', Concat other t = Ret t' /\ t_schema t' = t_schema t /\ of_schema t' /\ aligned t' /\
    records t' = records t ++ records other.
Proof.
  intros O O2 S N A A2. unfold Concat, DoConcat. cbn [t_schema UnloadAll Clone with_columns]. rewrite S, Nat.eqb_refl. cbn [negb].
  eexists. split; [reflexivity|]. split; [reflexivity|]. cbn [t_rows with_rows UnloadAll with_columns Clone].
  assert (F : map fst (t_rows other) = map fst (t_rows t)). { destruct O as (O & _), O2 as (O2 & _). now rewrite O, O2, S. }
  assert (L : length (t_rows other) = length (t_rows t)) by (rewrite !of_schema_len by auto; now rewrite S).
  assert (N' : NoDup (map fst (t_rows t))) by (destruct O as (O & _); now rewrite O).
  unfold records, of_schema, aligned. cbn. rewrite concat_join by auto. split; [|split].
  - rewrite join_fst by auto. rewrite !map_length. destruct O. auto.
  - now apply join_aligned.
  - now apply join_records.
Qed.
Lemma Concat_other (other t : table) : sc_id (t_schema t) <> sc_id (t_schema other) -> Concat other t = Err.
Proof. intros D. unfold Concat, DoConcat. cbn. now rewrite (proj2 (Nat.eqb_neq _ _) D). Qed.

(** ** Rows one by one *)
Lemma row_of_ok i : forall rs, (forall r, In r rs -> (i < length (snd r))%nat) -> row_of rs i = Ret (record_at rs i).
Proof.
  induction rs as [|[s o] rs IH]; intros H; auto. cbn [row_of].
  pose proof (H (s, o) (or_introl eq_refl)) as L. cbn [snd] in L. rewrite (nth_error_nth' o 0) by auto.
  rewrite IH by (intros r Hr; apply H; now right). reflexivity.
Qed.
Lemma row_of_aligned rs i : aligned_rows rs -> (i < count_of rs)%nat -> row_of rs i = Ret (nth i (records_of rs) []).
Proof. intros A L. rewrite nth_records by auto. apply row_of_ok. intros r H. now rewrite (A r H). Qed.

Lemma map_loop_ok f rs : aligned_rows rs -> forall n i, (i + n <= count_of rs)%nat ->
  map_loop f rs n i = Ret (filter (fun p => negb (p =? 0)) (map (fun j => f j (nth j (records_of rs) [])) (seq i n))).
Proof.
  intros A. induction n as [|n IH]; intros i L; auto. cbn [map_loop seq map filter].
  rewrite row_of_aligned by (auto; lia). cbn [obind]. rewrite IH by lia. cbn [obind].
  destruct (f i (nth i (records_of rs) []) =? 0); reflexivity.
Qed.
Lemma flatmap_loop_ok f rs : aligned_rows rs -> forall n i, (i + n <= count_of rs)%nat ->
  flatmap_loop f rs n i = Ret (filter (fun p => negb (p =? 0)) (flat_map (fun j => f j (nth j (records_of rs) [])) (seq i n))).
Proof.
  intros A. induction n as [|n IH]; intros i L; auto. cbn [flatmap_loop seq flat_map].
  rewrite row_of_aligned by (auto; lia). cbn [obind]. rewrite IH by lia. cbn [obind]. now rewrite filter_app.
Qed.
Lemma single_records s (objs : list Z) : records_of [(s, objs)] = map (fun p => [p]) objs.
Proof.
  unfold records_of, record_at. cbn [count_of map snd].
  rewrite <- (map_map (fun i => nth i objs 0) (fun p => [p])), nth_seq_map. reflexivity.
Qed.
Lemma single_ok (sc : schema) s objs : sc_rows sc = [s] -> let t' : table := with_rows [(s, objs)] (new_table sc) in
  t_schema t' = sc /\ of_schema t' /\ aligned t' /\ records t' = map (fun p => [p]) objs.
Proof.
  intros S. split; [reflexivity|]. split; [|split].
  - unfold of_schema. cbn. rewrite map_length. auto.
  - intros r [<-|[]]. reflexivity.
  - apply single_records.
Qed.
Lemma Map_ok (sc : schema) s f (t : table) : aligned t -> sc_rows sc = [s] ->
  exists t', Map sc s f t = Ret t' /\ t_schema t' = sc /\ of_schema t' /\ aligned t' /\
    records t' = map (fun p => [p]) (filter (fun p => negb (p =? 0)) (map (fun j => f j (nth j (records t) [])) (seq 0 (Count t)))).
Proof.
  intros A S. unfold Map. rewrite S, Nat.eqb_refl. rewrite (map_loop_ok f (t_rows t) A) by (cbn; unfold Count; destruct (t_rows t) as [|[]]; cbn; lia).
  cbn [obind]. eexists. split; [reflexivity|]. now apply single_ok.
Qed.
Lemma FlatMap_ok (sc : schema) s f (t : table) : aligned t -> sc_rows sc = [s] ->
  exists t', FlatMap sc s f t = Ret t' /\ t_schema t' = sc /\ of_schema t' /\ aligned t' /\
    records t' = map (fun p => [p]) (filter (fun p => negb (p =? 0)) (flat_map (fun j => f j (nth j (records t) [])) (seq 0 (Count t)))).
Proof.
  intros A S. unfold FlatMap. rewrite S, Nat.eqb_refl. rewrite (flatmap_loop_ok f (t_rows t) A) by (cbn; unfold Count; destruct (t_rows t) as [|[]]; cbn; lia).
  cbn [obind]. eexists. split; [reflexivity|]. now apply single_ok.
Qed.

(** Finding a row set *)
Lemma find_position : forall rs s, In s (map fst rs) ->
  find_rows rs s = Some (snd (nth (position s (map fst rs)) rs (0%nat, []))) /\ (position s (map fst rs) < length rs)%nat.
Proof.
  induction rs as [|[s' o] rs IH]; intros s H; [easy|]. cbn [map fst find_rows position] in *.
  destruct (Nat.eqb_spec s' s); [cbn; split; auto; lia|]. destruct H as [E|H]; [contradiction|].
  destruct (IH s H) as (E & L). cbn. split; auto. lia.
Qed.
Lemma find_column rs s : aligned_rows rs -> In s (map fst rs) ->
  exists objs, find_rows rs s = Some objs /\ length objs = count_of rs /\
    map (fun r => nth (position s (map fst rs)) r 0) (records_of rs) = objs.
Proof.
  intros A H. destruct (find_position rs s H) as (E & L). eexists. split; [exact E|].
  set (k := position s (map fst rs)) in *. set (objs := snd (nth k rs (0%nat, []))).
  assert (LO : length objs = count_of rs). { apply A. apply nth_In. auto. }
  split; auto. unfold records_of. rewrite map_map. rewrite <- LO.
  rewrite <- (nth_seq_map objs 0) at 2. apply map_ext_in. intros i Hi.
  unfold record_at. rewrite (nth_map_lt _ _ _ _ (0%nat, [])) by auto. reflexivity.
Qed.
Lemma GetRow_ok s i (t : table) : of_schema t -> aligned t -> In s (sc_rows (t_schema t)) ->
  GetRow s i t = if Nat.ltb i (Count t) then Ret (nth (position s (sc_rows (t_schema t))) (nth i (records t) []) 0) else Err.
Proof.
  intros (O & _) A H. unfold GetRow. rewrite (proj2 (existsb_in s _) H). cbn [negb].
  destruct (find_column (t_rows t) s A) as (objs & E & L & R); [now rewrite O|]. rewrite E.
  destruct (Nat.leb_spec (Count t) i), (Nat.ltb_spec i (Count t)); try lia; auto.
  rewrite (nth_error_nth' objs 0) by (rewrite L; auto). f_equal. rewrite <- R, <- O.
  rewrite (nth_map_lt _ _ _ _ []) by (fold (records t); rewrite count_records; auto). reflexivity.
Qed.
End T.
