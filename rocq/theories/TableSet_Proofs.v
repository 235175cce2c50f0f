(** Set of a column: written back into the objects of the rows. *)
From Coq Require Import List Bool Arith ZArith Lia.
Import ListNotations.
From Verif Require Import Base Simd_Spec Vector_Spec Vector_Model Table_Model Table_Spec Table_Proofs TableRows_Proofs TableColumns_Proofs.
Local Open Scope Z_scope.

Section S.
Context {V : Type}.
Notation table := (@table V).

Lemma Set_wrong_size h k u (data : list V) w (t : table) : length data <> Count t -> Set_ h k u data w t = Ret (h, t, false).
Proof.
  intros L. unfold Set_. apply Nat.eqb_neq in L. rewrite L. destruct (nth_error (t_columns t) k); [|reflexivity].
  destruct (nth_error (sc_columns (t_schema t)) k); reflexivity.
Qed.
Lemma write_back_ok n objs : forall (h : heap) (data : list V), length data = length objs -> NoDup objs -> ~ In 0 objs ->
  exists h', write_back h n objs data = Ret h' /\ map (fun p => h' p n) objs = data /\
    forall p n', ~ (In p objs /\ n' = n) -> h' p n' = h p n'.
Proof.
  induction objs as [|p objs IH]; intros h [|v data] L ND Z; try discriminate.
  - exists h. split; [reflexivity|]. split; reflexivity.
  - inversion ND as [|p' objs' NI ND']; subst p' objs'. cbn [write_back].
    replace (p =? 0) with false by (symmetry; apply Z.eqb_neq; intros ->; apply Z; left; reflexivity).
    destruct (IH (write_field h p n v) data) as (h' & E & M & O); [cbn in L; lia|exact ND'|intros I; apply Z; right; exact I|].
    exists h'. split; [exact E|]. split.
    + cbn [map]. f_equal; [|exact M]. rewrite O by tauto. unfold write_field. rewrite Z.eqb_refl, Nat.eqb_refl. reflexivity.
    + intros q n' N. rewrite O by (cbn in N; tauto). unfold write_field.
      destruct (Z.eqb_spec q p) as [->|D]; [|reflexivity]. destruct (Nat.eqb_spec n' n) as [->|D]; [|reflexivity].
      exfalso. apply N. split; [left|]; reflexivity.
Qed.
Lemma Set_written_back h k f u (data : list V) w (t : table) :
  proper (t_schema t) -> of_schema t -> aligned t -> nth_error (sc_columns (t_schema t)) k = Some f ->
  cf_write_back f = true -> cf_plain f = true -> cf_bit f = false -> length data = Count t ->
  NoDup (objects_of t f) -> ~ In 0 (objects_of t f) ->
  exists h' t1, Set_ h k u data w t = Ret (h', t1, true) /\ same_rows t t1 /\ column_values h' t1 f = data /\
    (exists t2 c, LoadColumnBase h' k t1 = Ret (t2, c) /\ elements c = Ret data) /\
    forall p n, ~ (In p (objects_of t f) /\ n = cf_field f) -> h' p n = h p n.
Proof.
  intros (ND & P) O A F WB PL BI L N0 Z0. unfold Set_.
  destruct (nth_error (t_columns t) k) as [c|] eqn:E.
  2:{ exfalso. apply nth_error_None in E. destruct O as (_ & O). rewrite O in E. apply nth_error_None in E. congruence. }
  rewrite F, L, Nat.eqb_refl, WB, PL, BI. cbn [negb andb].
  destruct (P f (nth_error_In _ _ F)) as (IN & W).
  destruct (find_column (t_rows t) (cf_schema f)) as (objs & FO & LO & RO); [exact A|destruct O as (O & _); now rewrite O|].
  assert (OO : objs = objects_of t f).
  { unfold objects_of, records. rewrite <- RO. destruct O as (O & _). rewrite O. reflexivity. }
  rewrite FO. rewrite <- OO in *. destruct (write_back_ok (cf_field f) objs h data) as (h' & EW & M & X); [rewrite LO; exact L|exact N0|exact Z0|].
  rewrite EW. cbn [obind]. eexists h', _. split; [reflexivity|]. split; [split; reflexivity|]. split; [|split; [|exact X]].
  - unfold column_values, objects_of in *. cbn [set_column with_columns t_schema records t_rows] in *.
    rewrite OO in M. rewrite map_map in M. exact M.
  - unfold LoadColumnBase. cbn [set_column with_columns t_schema t_columns].
    assert (EK : nth_error (upd (t_columns t) k (mk_column (Some data) (bytes_for f (Count t)) (User u) (Count t) w)) k =
                 Some (mk_column (Some data) (bytes_for f (Count t)) (User u) (Count t) w)).
    { clear - E. generalize dependent k. generalize (t_columns t). intros l. induction l as [|x l IH]; intros [|k] E; try discriminate; [reflexivity|].
      cbn. apply IH. exact E. }
    rewrite EK, F. cbn [vec_size]. destruct (Nat.eqb_spec (Count t) 0) as [Z|Z].
    + match goal with |- context [find_rows ?r ?s] => change (find_rows r s) with (find_rows (t_rows t) s) end. rewrite FO. unfold LoadColumn, ReserveMemory. cbn [memory_size memory].
      assert (CT : Count (set_column k (mk_column (Some data) (bytes_for f 0) (User u) 0 w) t) = 0%nat) by exact Z.
      assert (Z2 : count_of (t_rows t) = 0%nat) by exact Z. rewrite Z in *. rewrite CT. destruct objs; [|cbn in LO; lia]. destruct data; [|discriminate].
      rewrite Z.ltb_irrefl. cbn [memory_size length]. rewrite Z.ltb_irrefl. cbn [memory obind]. eexists _, _. split; [reflexivity|]. reflexivity.
    + eexists _, _. split; [reflexivity|]. unfold elements. cbn [memory vec_size]. rewrite <- L, Nat.leb_refl, firstn_all. reflexivity.
Qed.
End S.
