(** A processor, a sorting library and a table to show that the hypotheses of the theorems about tables can be met. *)
From Coq Require Import List Bool Arith ZArith Lia Sorted Permutation.
Import ListNotations.
From Verif Require Import Base Simd_Spec Vector_Spec Vector_Model Table_Model Table_Spec.
Local Open Scope Z_scope.

(** Insertion sort of the positions. *)
Definition before (keys : list Z) (desc : bool) (i j : nat) : bool :=
  if desc then nth j keys 0 <=? nth i keys 0 else nth i keys 0 <=? nth j keys 0.
Fixpoint ins (keys : list Z) (desc : bool) (i : nat) (l : list nat) : list nat :=
  match l with [] => [i] | j :: l' => if before keys desc i j then i :: l else j :: ins keys desc i l' end.
Definition isort (keys : list Z) (desc : bool) : list nat := fold_right (ins keys desc) [] (seq 0 (length keys)).

Definition R (keys : list Z) (desc : bool) (i j : nat) : Prop := before keys desc i j = true.
Lemma before_trans keys desc i j k : R keys desc i j -> R keys desc j k -> R keys desc i k.
Proof. unfold R, before. destruct desc; rewrite !Z.leb_le; lia. Qed.
Lemma before_total keys desc i j : before keys desc i j = false -> R keys desc j i.
Proof. unfold R, before. destruct desc; rewrite !Z.leb_le, !Z.leb_gt; lia. Qed.
Lemma ins_perm keys desc i l : Permutation (ins keys desc i l) (i :: l).
Proof. induction l as [|j l IH]; cbn; auto. destruct (before _ _ _ _); auto. rewrite IH. apply perm_swap. Qed.
Lemma ins_sorted keys desc i l : StronglySorted (R keys desc) l -> StronglySorted (R keys desc) (ins keys desc i l).
Proof.
  induction 1 as [|j l S IH F]; cbn; [repeat constructor|]. destruct (before keys desc i j) eqn:E.
  - constructor; [now constructor|]. constructor; auto. eapply Forall_impl; [|exact F]. intros k. now apply before_trans.
  - constructor; auto. rewrite ins_perm. constructor; auto. now apply before_total.
Qed.
Lemma isort_perm keys desc : Permutation (isort keys desc) (seq 0 (length keys)).
Proof. unfold isort. induction (seq 0 (length keys)) as [|i l IH]; cbn; auto. rewrite ins_perm. now constructor. Qed.
Lemma isort_sorted keys desc : StronglySorted (R keys desc) (isort keys desc).
Proof. unfold isort. induction (seq 0 (length keys)); cbn; [constructor|]. now apply ins_sorted. Qed.
Lemma isort_in_order keys desc d : in_order Z.le desc (at_positions d keys (isort keys desc)).
Proof.
  assert (L : Forall (fun i => i < length keys)%nat (isort keys desc)).
  { rewrite isort_perm. apply Forall_forall. intros i H. apply in_seq in H. lia. }
  unfold in_order, at_positions. pose proof (isort_sorted keys desc) as S. induction S as [|i l S IH F]; cbn; [constructor|].
  inversion L as [|? ? Li Ll]; subst. constructor; auto. apply Forall_map. rewrite Forall_forall in *. intros j Hj. specialize (F j Hj). specialize (Ll j Hj).
  unfold R, before in F. rewrite (nth_indep keys d 0 Li), (nth_indep keys d 0 Ll). destruct desc; now apply Z.leb_le in F.
Qed.
Lemma sorted_parts {A} (P : A -> A -> Prop) : forall k l, StronglySorted P l ->
  StronglySorted P (firstn k l) /\ forall a b, In a (firstn k l) -> In b (skipn k l) -> P a b.
Proof.
  induction k as [|k IH]; intros l S; [split; [constructor|intros ? ? []]|]. destruct S as [|x l S F]; cbn; [split; [constructor|intros ? ? []]|].
  destruct (IH l S) as (S1 & H1). split.
  - constructor; auto. rewrite Forall_forall in *. intros y Hy. apply F. rewrite <- (firstn_skipn k l). apply in_or_app. auto.
  - intros a b [<-|Ha] Hb; auto. rewrite Forall_forall in F. apply F. rewrite <- (firstn_skipn k l). apply in_or_app. auto.
Qed.

(** A 256-bit processor. *)
Example fair_example :
  fair 4 32 Z.eqb isort (fun keys _ desc => isort keys desc) (fun A l => rev l) Z.le.
Proof.
  split; [split; [cbn; auto|lia]|]. split.
  { split; [intros x y; rewrite !Z.eqb_eq; auto|intros x y z; rewrite !Z.eqb_eq; congruence]. }
  split; [intros keys desc; split; [apply isort_perm|apply isort_in_order]|]. split.
  - intros keys k desc _. split; [apply isort_perm|]. intros d. destruct (sorted_parts _ k _ (isort_in_order keys desc d)) as (S1 & H1). split; auto.
  - intros A l. apply Permutation_sym, Permutation_rev.
Qed.

(** Row type 7 with two 8-byte columns, row type 9 with an 8-byte column and one of type Bit. *)
Definition example_schema : schema := mk_schema 1 [7; 9]%nat
  [mk_field 7 0 false 8 true false true; mk_field 7 1 false 8 true false true; mk_field 9 0 false 8 true false true; mk_field 9 1 true 1 false false true].
(** Field n of the object at p. *)
Definition example_heap : heap := fun p n => (p / 10 ^ Z.of_nat n) mod 10.
(** Four rows. *)
Definition example_rows : list (nat * list Z) := [(7%nat, [11; 21; 12; 11]); (9%nat, [5; 5; 6; 7])].
Definition example_table : @table Z := fst (AddRows example_rows (new_table example_schema)).

Lemma careful_step {V} (l64 l8 g : Z) veq hb so po sh o (l : list (@op V)) st st' ok : valid hb o st -> call l64 l8 g veq hb so po sh o st = Ret (st', ok) ->
  careful l64 l8 g veq hb so po sh l st' -> careful l64 l8 g veq hb so po sh (o :: l) st.
Proof. intros VA E C. split; auto. intros st1 ok1 E1. rewrite E in E1. now injection E1 as <- <-. Qed.
Lemma example_proper : proper example_schema.
Proof.
  split.
  - cbn. constructor; [intros [H|[]]; discriminate|]. constructor; [intros []|constructor].
  - intros f H. cbn in H. destruct H as [<-|[<-|[<-|[<-|[]]]]]; cbn; auto with zarith; split; auto; lia.
Qed.
Lemma example_acceptable : acceptable example_rows example_schema.
Proof. split; [reflexivity|]. exists 4%nat. split; [lia|]. intros g [<-|[<-|[]]]; reflexivity. Qed.
Example example_history :
  careful 4 32 0 Z.eqb (fun _ => true) isort (fun keys _ desc => isort keys desc) (fun A l => rev l)
    [O_new example_schema; O_add 0 example_rows] (example_heap, []).
Proof.
  eapply careful_step; [exact example_proper|reflexivity|]. eapply careful_step; [|reflexivity|exact I].
  intros t E. injection E as <-. right. exact example_acceptable.
Qed.
Example example_reachable :
  reachable 4 32 0 Z.eqb (fun _ => true) isort (fun keys _ desc => isort keys desc) (fun A l => rev l) example_heap example_table.
Proof.
  exists [O_new example_schema; O_add 0 example_rows]. eexists _, _, 0%nat. split; [exact example_history|]. split; reflexivity.
Qed.
Lemma example_of_schema : of_schema example_table. Proof. split; reflexivity. Qed.
Lemma example_aligned : aligned example_table. Proof. intros r [<-|[<-|[]]]; reflexivity. Qed.
Lemma example_not_loaded : not_loaded example_table. Proof. repeat constructor. Qed.
