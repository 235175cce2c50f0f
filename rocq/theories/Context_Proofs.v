From Coq Require Import List Bool Arith ZArith Lia.
Import ListNotations.
From Verif Require Import Base Vector_Model Vector_Spec Vector_Proofs Context_Model Context_Spec.

(** ** Objects *)

(** The clean-ups still to run, [l] first, are those of the objects not yet destroyed, in creation order. *)
Record Inv (l : list cleanup) (x : ctx) : Prop := {
  inv_order : destroyed x = seq 0 (length (destroyed x));
  inv_le : length (destroyed x) <= created x;
  inv_todo : map object (l ++ rev (cleanups x)) = seq (length (destroyed x)) (created x - length (destroyed x));
  inv_alive : forall p, In p (alive x) <-> length (destroyed x) <= p < created x;
  inv_ptrs : Forall (fun e => snd e < created x) (ptrs x)
}.

Lemma is_alive_spec x p : is_alive x p = true <-> In p (alive x).
Proof.
  unfold is_alive. rewrite existsb_exists. split.
  - intros (q & I & E). apply Nat.eqb_eq in E. now subst.
  - intros I. exists p. split; [exact I|]. apply Nat.eqb_refl.
Qed.

Lemma inv_new l c x : Inv l x -> Inv l (fst (New c x)).
Proof.
  intros [O L T A P]. constructor; cbn [New fst destroyed created alive cleanups ptrs].
  - exact O.
  - lia.
  - cbn [rev]. rewrite app_assoc, map_app, T. cbn [map object].
    rewrite Nat.sub_succ_l by lia. rewrite seq_S. f_equal. f_equal. lia.
  - intros p. cbn [In]. rewrite A. lia.
  - eapply Forall_impl; [|exact P]. cbn. intros. lia.
Qed.

Lemma inv_news l cs : forall x, Inv l x -> Inv l (fold_left (fun y c => fst (New c y)) cs x).
Proof. induction cs as [|c cs IH]; intros x I; [exact I|]. cbn [fold_left]. apply IH. now apply inv_new. Qed.

Lemma news_destroyed cs : forall x, destroyed (fold_left (fun y c => fst (New c y)) cs x) = destroyed x.
Proof. induction cs as [|c cs IH]; intros x; [reflexivity|]. cbn [fold_left]. now rewrite IH. Qed.
Lemma news_memory cs : forall x, memory (fold_left (fun y c => fst (New c y)) cs x) = memory x.
Proof. induction cs as [|c cs IH]; intros x; [reflexivity|]. cbn [fold_left]. now rewrite IH. Qed.
Lemma news_ptrs cs : forall x, ptrs (fold_left (fun y c => fst (New c y)) cs x) = ptrs x.
Proof. induction cs as [|c cs IH]; intros x; [reflexivity|]. cbn [fold_left]. now rewrite IH. Qed.
Lemma news_cleanups cs : forall x,
  Forall (fun k => In k (cleanups x) \/ (In (its_class k) cs)) (cleanups (fold_left (fun y c => fst (New c y)) cs x)).
Proof.
  induction cs as [|c cs IH]; intros x.
  - apply Forall_forall. intros k I. now left.
  - cbn [fold_left]. eapply Forall_impl; [|apply IH]. cbn [New fst cleanups In].
    intros k [[<-|I]|I]; [right; now left|now left|right; now right].
Qed.

Lemma inv_head k l x : Inv (k :: l) x -> object k = length (destroyed x) /\ length (destroyed x) < created x.
Proof.
  intros [O L T A P]. cbn [app map] in T.
  destruct (created x - length (destroyed x)) eqn:D; [discriminate|].
  cbn [seq] in T. injection T as E _. split; [exact E|lia].
Qed.

Lemma delete_inv k l x x' : Inv (k :: l) x -> delete_object k x = Ret x' -> Inv l x' /\ ptrs x' = ptrs x.
Proof.
  intros I E. unfold delete_object in E. destruct (is_alive x (object k)) eqn:A0; [|discriminate].
  destruct (its_class k) as [t am sp] eqn:C.
  destruct (am && negb (its_memory k =? memory x)); [discriminate|]. injection E as <-.
  pose proof (inv_news (k :: l) sp x I) as I1. pose proof (news_ptrs sp x) as PE.
  set (x1 := fold_left _ sp x) in *.
  destruct (inv_head _ _ _ I1) as [Ek Lk]. destruct I1 as [O L T A P].
  split; [|exact PE].
  constructor; cbn [destroyed created alive cleanups ptrs].
  - rewrite app_length. cbn [length]. rewrite Nat.add_1_r, seq_S, Ek. cbn [Nat.add]. rewrite <- O. reflexivity.
  - rewrite app_length. cbn [length]. lia.
  - rewrite app_length. cbn [length]. rewrite Nat.add_1_r.
    replace (created x1 - length (destroyed x1)) with (S (created x1 - S (length (destroyed x1)))) in T by lia.
    cbn [app map seq] in T. injection T as _ T. exact T.
  - intros p. rewrite app_length. cbn [length]. split.
    + intros I2. apply in_remove in I2. destruct I2 as [I2 N]. apply A in I2. lia.
    + intros B. apply in_in_remove; [lia|]. apply A. lia.
  - exact P.
Qed.

Lemma run_inv : forall l m x x', Inv (l ++ m) x -> run_cleanups l x = Ret x' -> Inv m x' /\ ptrs x' = ptrs x.
Proof.
  induction l as [|k l IH]; intros m x x' I E; cbn [run_cleanups] in E.
  - injection E as <-. split; [exact I|reflexivity].
  - destruct (delete_object k x) as [x1| | |] eqn:D; try discriminate. cbn [obind] in E.
    cbn [app] in I. destruct (delete_inv _ _ _ _ I D) as [I1 P1].
    destruct (IH _ _ _ I1 E) as [I2 P2]. split; [exact I2|congruence].
Qed.

Lemma sweep_inv : forall fuel x x', Inv [] x -> sweep fuel x = Ret x' ->
  Inv [] x' /\ cleanups x' = [] /\ ptrs x' = ptrs x.
Proof.
  induction fuel as [|fuel IH]; intros x x' I E; cbn [sweep] in E.
  - destruct (cleanups x) eqn:C; [|discriminate]. injection E as <-. auto.
  - destruct (cleanups x) as [|k0 l0] eqn:C.
    + injection E as <-. auto.
    + rewrite <- C in E. clear C k0 l0.
      destruct (run_cleanups (rev (cleanups x)) _) as [x1| | |] eqn:R; try discriminate. cbn [obind] in E.
      assert (I0 : Inv (rev (cleanups x) ++ [])
        (mk_ctx (created x) (alive x) [] (ptrs x) (has_nan x) (memory x) (destroyed x))).
      { destruct I as [O L T A P]. constructor; cbn [destroyed created alive cleanups ptrs]; auto.
        cbn [rev]. rewrite !app_nil_r. exact T. }
      destruct (run_inv _ _ _ _ I0 R) as [I1 P1].
      destruct (IH _ _ I1 E) as (I2 & C2 & P2). split; [exact I2|]. split; [exact C2|]. rewrite P2. exact P1.
Qed.

Lemma reset_inv fuel x x' : Inv [] x -> Reset fuel x = Ret x' ->
  Inv [] x' /\ cleanups x' = [] /\ ptrs x' = ptrs x.
Proof.
  intros I E. unfold Reset in E. eapply sweep_inv in E; [exact E|].
  destruct I as [O L T A P]. constructor; auto.
Qed.

Lemma inv_done x : Inv [] x -> cleanups x = [] -> destroyed x = seq 0 (created x) /\ alive x = [].
Proof.
  intros [O L T A P] C. rewrite C in T. cbn [rev app map] in T.
  destruct (created x - length (destroyed x)) eqn:D; [|discriminate].
  assert (E : length (destroyed x) = created x) by lia. split.
  - rewrite O, E. reflexivity.
  - destruct (alive x) as [|p r] eqn:Al; [reflexivity|].
    assert (In p (p :: r)) as I by now left. apply A in I. lia.
Qed.

Lemma find_set m t p u : find_ptr (set_ptr m t p) u = if Nat.eqb t u then Some p else find_ptr m u.
Proof.
  induction m as [|[t' p'] m IH]; cbn [set_ptr find_ptr]; [reflexivity|].
  destruct (t' =? t) eqn:E; cbn [find_ptr].
  - apply Nat.eqb_eq in E. subst t'. destruct (t =? u); reflexivity.
  - rewrite IH. destruct (t' =? u) eqn:E2; [|reflexivity].
    apply Nat.eqb_eq in E2. subst t'. apply Nat.eqb_neq in E.
    destruct (Nat.eqb_spec t u); [now subst|reflexivity].
Qed.
Lemma set_ptr_forall (Q : nat -> Prop) m t p : Forall (fun e => Q (snd e)) m -> Q p ->
  Forall (fun e => Q (snd e)) (set_ptr m t p).
Proof.
  intros F Hp. induction F as [|[t' p'] m Ht F IH]; cbn [set_ptr].
  - constructor; auto.
  - destruct (t' =? t); constructor; auto.
Qed.
Lemma find_ptr_forall (Q : nat -> Prop) m t p : Forall (fun e => Q (snd e)) m -> find_ptr m t = Some p -> Q p.
Proof.
  induction 1 as [|[t' p'] m Ht F IH]; cbn [find_ptr]; [discriminate|].
  destruct (t' =? t); [intros [= <-]; exact Ht|exact IH].
Qed.

(** What GetPtr does. *)
Lemma get_cases c v x x' p : GetPtr c v x = Ret (x', p) ->
  (x' = x /\ find_ptr (ptrs x) (type_of c) = Some p /\ (v = None \/ (v = Some true /\ In p (alive x)))) \/
  (p = created x /\ created x' = S p /\ alive x' = p :: alive x /\
   cleanups x' = mk_cleanup p c (memory x) :: cleanups x /\ ptrs x' = set_ptr (ptrs x) (type_of c) p /\
   has_nan x' = has_nan x /\ memory x' = memory x /\ destroyed x' = destroyed x /\
   (find_ptr (ptrs x) (type_of c) = None \/
    v = Some false /\ exists q, find_ptr (ptrs x) (type_of c) = Some q /\ In q (alive x))).
Proof.
  unfold GetPtr. destruct (find_ptr (ptrs x) (type_of c)) as [q|] eqn:F.
  - destruct v as [b|].
    + destruct (is_alive x q) eqn:A; [|discriminate]. apply is_alive_spec in A. destruct b.
      * intros [= <- <-]. left. auto.
      * intros [= <- <-]. right. cbn. repeat split; auto. right. split; [reflexivity|]. now exists q.
    + intros [= <- <-]. left. auto.
  - intros [= <- <-]. right. cbn. repeat split; auto.
Qed.

Lemma get_inv c v x x' p : Inv [] x -> GetPtr c v x = Ret (x', p) -> Inv [] x'.
Proof.
  intros I E. destruct (get_cases _ _ _ _ _ E) as [(-> & _)|(Ep & Ec & Ea & Ek & Ept & _ & _ & Ed & _)]; [exact I|].
  pose proof (inv_new [] c x I) as [O L T A P].
  cbn [New fst destroyed created alive cleanups ptrs] in *.
  constructor; rewrite ?Ed, ?Ec, ?Ea, ?Ek, ?Ept, ?Ep; auto.
  apply (set_ptr_forall (fun q => q < S (created x))); [exact P|lia].
Qed.

Lemma exec_inv fuel k x x' a : Inv [] x -> exec fuel k x = Ret (x', a) -> Inv [] x'.
Proof.
  intros I E. destruct k as [c|c v|v|]; cbn [exec] in E.
  - injection E as <- <-. exact (inv_new [] c x I).
  - destruct (GetPtr c v x) as [[x1 p]| | |] eqn:G; try discriminate. injection E as <- <-. now apply get_inv in G.
  - injection E as <- <-. destruct I as [O L T A P]. constructor; auto.
  - destruct (Reset fuel x) as [x1| | |] eqn:R; try discriminate. injection E as <- <-. now apply reset_inv in R.
Qed.

Lemma execs_inv fuel : forall l x x' r, Inv [] x -> execs fuel l x = Ret (x', r) -> Inv [] x'.
Proof.
  induction l as [|k l IH]; intros x x' r I E; cbn [execs] in E.
  - now injection E as <- _.
  - destruct (exec fuel k x) as [[x1 a]| | |] eqn:X; try discriminate. cbn [obind] in E.
    destruct (execs fuel l x1) as [[x2 r2]| | |] eqn:Y; try discriminate. cbn [obind] in E. injection E as <- _.
    exact (IH _ _ _ (exec_inv _ _ _ _ _ I X) Y).
Qed.

Lemma inv_start : Inv [] new_ctx.
Proof. constructor; cbn; auto. intros p. lia. Qed.

Lemma execs_app fuel : forall l1 l2 x,
  execs fuel (l1 ++ l2) x =
  do! (x1, r1) <- execs fuel l1 x ; do! (x2, r2) <- execs fuel l2 x1 ; Ret (x2, r1 ++ r2).
Proof.
  induction l1 as [|k l1 IH]; intros l2 x; cbn [execs app obind].
  - destruct (execs fuel l2 x) as [[x2 r2]| | |]; reflexivity.
  - destruct (exec fuel k x) as [[x1 a]| | |]; try reflexivity. cbn [obind]. rewrite IH.
    destruct (execs fuel l1 x1) as [[x2 r2]| | |]; try reflexivity. cbn [obind].
    destruct (execs fuel l2 x2) as [[x3 r3]| | |]; reflexivity.
Qed.
Lemma execs_app_inv fuel l1 l2 x x' r : execs fuel (l1 ++ l2) x = Ret (x', r) ->
  exists x1 r1 r2, execs fuel l1 x = Ret (x1, r1) /\ execs fuel l2 x1 = Ret (x', r2) /\ r = r1 ++ r2.
Proof.
  rewrite execs_app. destruct (execs fuel l1 x) as [[x1 r1]| | |]; try discriminate. cbn [obind].
  destruct (execs fuel l2 x1) as [[x2 r2]| | |] eqn:E; try discriminate. intros [= <- <-].
  exists x1, r1, r2. auto.
Qed.
Lemma execs_cons_inv fuel k l x x' r : execs fuel (k :: l) x = Ret (x', r) ->
  exists x1 a r2, exec fuel k x = Ret (x1, a) /\ execs fuel l x1 = Ret (x', r2) /\ r = a :: r2.
Proof.
  cbn [execs]. destruct (exec fuel k x) as [[x1 a]| | |]; try discriminate. cbn [obind].
  destruct (execs fuel l x1) as [[x2 r2]| | |] eqn:E; try discriminate. intros [= <- <-].
  exists x1, a, r2. auto.
Qed.

Lemma destroyed_in_order fuel l x r : execs fuel l new_ctx = Ret (x, r) ->
  exists n, n <= created x /\ destroyed x = seq 0 n /\ (forall p, In p (alive x) <-> n <= p < created x).
Proof.
  intros E. destruct (execs_inv _ _ _ _ _ inv_start E) as [O L T A P].
  exists (length (destroyed x)). auto.
Qed.

Lemma reset_destroys_all fuel l x r : execs fuel (l ++ [C_reset]) new_ctx = Ret (x, r) ->
  destroyed x = seq 0 (created x) /\ alive x = [].
Proof.
  intros E. destruct (execs_app_inv _ _ _ _ _ _ E) as (x1 & r1 & r2 & E1 & E2 & _).
  destruct (execs_cons_inv _ _ _ _ _ _ E2) as (x2 & a & r3 & E3 & E4 & _).
  cbn [execs] in E4. injection E4 as <- _. cbn [exec] in E3.
  destruct (Reset fuel x1) as [x3| | |] eqn:R; try discriminate. injection E3 as <- _.
  destruct (reset_inv _ _ _ (execs_inv _ _ _ _ _ inv_start E1) R) as (I & C & _). now apply inv_done.
Qed.

Lemma exec_keeps fuel k x x' a : k <> C_reset -> exec fuel k x = Ret (x', a) ->
  destroyed x' = destroyed x /\ created x <= created x' /\ memory x' = memory x.
Proof.
  intros N E. destruct k as [c|c v|v|]; cbn [exec] in E; [| | |now elim N].
  - injection E as <- <-. cbn. auto.
  - destruct (GetPtr c v x) as [[x1 p]| | |] eqn:G; try discriminate. injection E as <- <-.
    destruct (get_cases _ _ _ _ _ G) as [(-> & _)|(Ep & Ec & _ & _ & _ & _ & Em & Ed & _)]; [auto|].
    repeat split; auto. lia.
  - injection E as <- <-. auto.
Qed.

Lemma only_reset_destroys fuel : forall l x x' r, ~ In C_reset l -> execs fuel l x = Ret (x', r) ->
  destroyed x' = destroyed x /\ created x <= created x' /\ memory x' = memory x.
Proof.
  induction l as [|k l IH]; intros x x' r N E.
  - cbn [execs] in E. injection E as <- _. auto.
  - destruct (execs_cons_inv _ _ _ _ _ _ E) as (x1 & a & r2 & E1 & E2 & _).
    assert (N1 : k <> C_reset) by (intros ->; apply N; now left).
    assert (N2 : ~ In C_reset l) by (intros I; apply N; now right).
    destruct (exec_keeps _ _ _ _ _ N1 E1) as (A1 & B1 & M1).
    destruct (IH _ _ _ N2 E2) as (A2 & B2 & M2).
    repeat split; [congruence|lia|congruence].
Qed.

(** Pointers remembered by type: an entry appears only through a fetch. *)
Lemma exec_find fuel k x x' a t : Inv [] x -> exec fuel k x = Ret (x', a) -> ~ fetches t k ->
  find_ptr (ptrs x') t = find_ptr (ptrs x) t.
Proof.
  intros I E N. destruct k as [c|c v|v|]; cbn [exec] in E.
  - injection E as <- <-. reflexivity.
  - destruct (GetPtr c v x) as [[x1 p]| | |] eqn:G; try discriminate. injection E as <- <-.
    destruct (get_cases _ _ _ _ _ G) as [(-> & _)|(_ & _ & _ & _ & Ep & _)]; [reflexivity|].
    rewrite Ep, find_set. cbn [fetches] in N. apply Nat.eqb_neq in N. now rewrite N.
  - injection E as <- <-. reflexivity.
  - destruct (Reset fuel x) as [x1| | |] eqn:R; try discriminate. injection E as <- <-.
    apply reset_inv in R; [|exact I]. destruct R as (_ & _ & ->). reflexivity.
Qed.
Lemma execs_find fuel t : forall l x x' r, Inv [] x -> execs fuel l x = Ret (x', r) ->
  (forall k, In k l -> ~ fetches t k) -> find_ptr (ptrs x') t = find_ptr (ptrs x) t.
Proof.
  induction l as [|k l IH]; intros x x' r I E N.
  - cbn [execs] in E. now injection E as <- _.
  - destruct (execs_cons_inv _ _ _ _ _ _ E) as (x1 & a & r2 & E1 & E2 & _).
    rewrite (IH _ _ _ (exec_inv _ _ _ _ _ I E1) E2) by (intros k0 I0; apply N; now right).
    apply (exec_find _ _ _ _ _ _ I E1). apply N. now left.
Qed.

Definition fresh_entry (t : nat) (x : ctx) : Prop :=
  match find_ptr (ptrs x) t with Some p => In p (alive x) | None => True end.

Lemma find_lt l x t p : Inv l x -> find_ptr (ptrs x) t = Some p -> p < created x.
Proof. intros I. exact (find_ptr_forall (fun q => q < created x) _ _ _ (inv_ptrs _ _ I)). Qed.

(** Without a Reset the remembered pointer stays good. *)
Lemma exec_fresh fuel k x x' a t : Inv [] x -> k <> C_reset -> exec fuel k x = Ret (x', a) ->
  fresh_entry t x -> fresh_entry t x'.
Proof.
  intros I N E F. pose proof (exec_inv _ _ _ _ _ I E) as I'.
  destruct (exec_keeps _ _ _ _ _ N E) as (Dd & Dc & _).
  assert (K : forall p, In p (alive x) -> In p (alive x')).
  { intros p H. apply (inv_alive _ _ I'). apply (inv_alive _ _ I) in H. rewrite Dd. lia. }
  unfold fresh_entry in *. destruct k as [c|c v|v|]; cbn [exec] in E; [| | |now elim N].
  - injection E as <- <-. cbn [New fst ptrs alive] in *. destruct (find_ptr (ptrs x) t); [now right|exact Logic.I].
  - destruct (GetPtr c v x) as [[x1 p]| | |] eqn:G; try discriminate. injection E as <- <-.
    destruct (get_cases _ _ _ _ _ G) as [(-> & _)|(Ep & _ & Ea & _ & Ept & _)]; [exact F|].
    rewrite Ept, find_set. destruct (type_of c =? t).
    + rewrite Ea. now left.
    + destruct (find_ptr (ptrs x) t); [now apply K|exact Logic.I].
  - injection E as <- <-. exact F.
Qed.
Lemma execs_fresh fuel t : forall l x x' r, Inv [] x -> ~ In C_reset l -> execs fuel l x = Ret (x', r) ->
  fresh_entry t x -> fresh_entry t x'.
Proof.
  induction l as [|k l IH]; intros x x' r I N E F.
  - cbn [execs] in E. now injection E as <- _.
  - destruct (execs_cons_inv _ _ _ _ _ _ E) as (x1 & a & r2 & E1 & E2 & _).
    apply (IH _ _ _ (exec_inv _ _ _ _ _ I E1)) in E2; [exact E2|intros J; apply N; now right|].
    assert (N1 : k <> C_reset) by (intros ->; apply N; now left).
    exact (exec_fresh _ _ _ _ _ _ I N1 E1 F).
Qed.

Lemma call_eq_reset (k : call) : {k = C_reset} + {k <> C_reset}.
Proof. destruct k; (now left) || (right; discriminate). Qed.
Lemma fetches_dec t k : {fetches t k} + {~ fetches t k}.
Proof. destruct k as [c|c v|v|]; cbn; try (right; tauto). apply Nat.eq_dec. Qed.

(** The remembered pointer of a type is good if the type was not fetched before the last Reset. *)
Lemma fresh_history fuel t : forall l x r, execs fuel l new_ctx = Ret (x, r) ->
  (forall l1 l2 k, l = l1 ++ k :: l2 -> fetches t k -> ~ In C_reset l2) -> fresh_entry t x.
Proof.
  intros l. induction l as [|k l IH] using rev_ind; intros x r E H.
  - cbn [execs] in E. injection E as <- _. exact I.
  - destruct (execs_app_inv _ _ _ _ _ _ E) as (x1 & r1 & r2 & E1 & E2 & _).
    destruct (execs_cons_inv _ _ _ _ _ _ E2) as (x2 & a & r3 & E3 & E4 & _).
    cbn [execs] in E4. injection E4 as <- _.
    pose proof (execs_inv _ _ _ _ _ inv_start E1) as I1.
    destruct (call_eq_reset k) as [->|N].
    + (* no fetch before the Reset: no entry *)
      unfold fresh_entry. rewrite (exec_find _ _ _ _ _ t I1 E3) by (intros []).
      rewrite (execs_find _ t _ _ _ _ inv_start E1); [exact I|].
      intros k0 I0 F. destruct (in_split _ _ I0) as (l1 & l2 & ->).
      apply (H l1 (l2 ++ [C_reset]) k0); [|exact F|].
      * rewrite <- app_assoc. reflexivity.
      * apply in_or_app. right. now left.
    + apply (exec_fresh _ _ _ _ _ t I1 N E3). apply (IH _ _ E1).
      intros l1 l2 k0 -> F J. apply (H l1 (l2 ++ [k]) k0); [|exact F|].
      * rewrite <- app_assoc. reflexivity.
      * apply in_or_app. now left.
Qed.

Lemma get_alive fuel l c v x r a :
  execs fuel (l ++ [C_get c v]) new_ctx = Ret (x, r ++ [a]) ->
  never_refetched (l ++ [C_get c v]) ->
  exists p, a = Some p /\ In p (alive x).
Proof.
  intros E H. destruct (execs_app_inv _ _ _ _ _ _ E) as (x1 & r1 & r2 & E1 & E2 & Er).
  destruct (execs_cons_inv _ _ _ _ _ _ E2) as (x2 & a' & r3 & E3 & E4 & ->).
  cbn [execs] in E4. injection E4 as <- <-. apply app_inj_tail in Er. destruct Er as [-> ->].
  assert (F : fresh_entry (type_of c) x1).
  { apply (fresh_history _ _ _ _ _ E1). intros l1 l2 k -> Fk.
    apply (H l1 l2 [] k c v); [|exact Fk]. rewrite <- app_assoc. reflexivity. }
  cbn [exec] in E3. destruct (GetPtr c v x1) as [[x3 p]| | |] eqn:G; try discriminate. injection E3 as <- <-.
  exists p. split; [reflexivity|].
  destruct (get_cases _ _ _ _ _ G) as [(-> & Fd & _)|(_ & _ & -> & _)].
  - unfold fresh_entry in F. now rewrite Fd in F.
  - now left.
Qed.

(** Fetching again without a Reset in between gives the same object, unless it is rejected. *)
Lemma get_same fuel l1 l2 c v1 v2 x r1 p r2 a : v2 <> Some false ->
  execs fuel (l1 ++ C_get c v1 :: l2 ++ [C_get c v2]) new_ctx = Ret (x, r1 ++ Some p :: r2 ++ [a]) ->
  length r1 = length l1 -> length r2 = length l2 ->
  (forall k, In k l2 -> ~ fetches (type_of c) k) -> a = Some p.
Proof.
  intros Nv E L1 L2 N.
  destruct (execs_app_inv _ _ _ _ _ _ E) as (x1 & q1 & q2 & E1 & E2 & Er).
  destruct (execs_cons_inv _ _ _ _ _ _ E2) as (x2 & a2 & q3 & E3 & E4 & ->).
  destruct (execs_app_inv _ _ _ _ _ _ E4) as (x3 & q4 & q5 & E5 & E6 & ->).
  destruct (execs_cons_inv _ _ _ _ _ _ E6) as (x4 & a4 & q6 & E7 & E8 & ->).
  cbn [execs] in E8. injection E8 as <- <-.
  assert (LL : forall f l y y' q, execs f l y = Ret (y', q) -> length q = length l).
  { intros f l. induction l as [|k l IH]; intros y y' q Q; cbn [execs] in Q.
    - now injection Q as _ <-.
    - destruct (execs_cons_inv _ _ _ _ _ _ Q) as (y1 & b & qq & _ & Q2 & ->). cbn. f_equal. eauto. }
  assert (Eq : r1 = q1 /\ Some p :: r2 ++ [a] = a2 :: q4 ++ [a4]).
  { apply app_eq_app in Er. pose proof (LL _ _ _ _ _ E1) as L. destruct Er as (z & [[A B]|[A B]]).
    - assert (z = []) by (apply f_equal with (f := @length _) in A; rewrite app_length in A; destruct z; [auto|cbn in A; lia]).
      subst z. rewrite app_nil_r in A. auto.
    - assert (z = []) by (apply f_equal with (f := @length _) in A; rewrite app_length in A; destruct z; [auto|cbn in A; lia]).
      subst z. rewrite app_nil_r in A. auto. }
  destruct Eq as [_ Eq]. injection Eq as <- Eq. apply app_inj_tail in Eq. destruct Eq as [_ ->].
  pose proof (execs_inv _ _ _ _ _ inv_start E1) as I1.
  pose proof (exec_inv _ _ _ _ _ I1 E3) as I2. pose proof (execs_inv _ _ _ _ _ I2 E5) as I3.
  cbn [exec] in E3. destruct (GetPtr c v1 x1) as [[y p']| | |] eqn:G1; try discriminate. injection E3 as <- <-.
  assert (F2 : find_ptr (ptrs y) (type_of c) = Some p').
  { destruct (get_cases _ _ _ _ _ G1) as [(-> & F & _)|(_ & _ & _ & _ & -> & _)]; [exact F|].
    now rewrite find_set, Nat.eqb_refl. }
  pose proof (execs_find _ (type_of c) _ _ _ _ I2 E5 N) as F3. rewrite F2 in F3.
  cbn [exec] in E7. destruct (GetPtr c v2 x3) as [[y2 p2]| | |] eqn:G2; try discriminate. injection E7 as <- <-.
  destruct (get_cases _ _ _ _ _ G2) as [(-> & F & _)|(_ & _ & _ & _ & _ & _ & _ & _ & [F|(F & _)])]; congruence.
Qed.

(** After a Reset the entry is dead and stays. *)
Lemma exec_stale fuel k x x' a t p : Inv [] x -> exec fuel k x = Ret (x', a) -> trusts t k ->
  find_ptr (ptrs x) t = Some p -> In p (destroyed x) ->
  find_ptr (ptrs x') t = Some p /\ In p (destroyed x').
Proof.
  intros I E T F D. destruct (fetches_dec t k) as [Fk|Fk].
  - destruct k as [c|c v|v|]; cbn [fetches] in Fk; try contradiction. subst t.
    destruct v as [b|]; [now cbn in T; elim T|].
    cbn [exec] in E. unfold GetPtr in E. rewrite F in E. injection E as <- <-. auto.
  - split; [rewrite (exec_find _ _ _ _ _ _ I E Fk); exact F|].
    destruct (call_eq_reset k) as [->|N].
    + pose proof (exec_inv _ _ _ _ _ I E) as I'. pose proof (inv_order _ _ I') as O'. cbn [exec] in E.
      destruct (Reset fuel x) as [x1| | |] eqn:R; try discriminate. injection E as <- _.
      destruct (reset_inv _ _ _ I R) as (I1 & C1 & _). destruct (inv_done _ I1 C1) as [D1 _].
      rewrite D1. apply in_seq. split; [lia|].
      assert (G : p < created x) by exact (find_lt _ _ _ _ I F).
      assert (created x <= created x1); [|lia].
      clear - R I. unfold Reset in R. revert R.
      assert (K : forall cs y, created y <= created (fold_left (fun y c => fst (New c y)) cs y)).
      { induction cs as [|c cs IH]; intros y; cbn [fold_left]; [lia|]. specialize (IH (fst (New c y))). cbn in IH. cbn. lia. }
      assert (K2 : forall l y y', run_cleanups l y = Ret y' -> created y <= created y').
      { induction l as [|k l IH]; intros y y' Q; cbn [run_cleanups] in Q; [injection Q as <-; lia|].
        destruct (delete_object k y) as [y1| | |] eqn:Dl; try discriminate. cbn [obind] in Q. apply IH in Q.
        unfold delete_object in Dl. destruct (is_alive y (object k)); [|discriminate].
        destruct (its_class k) as [t am sp]. destruct (am && _); [discriminate|]. injection Dl as <-.
        exact (Nat.le_trans _ _ _ (K sp y) Q). }
      assert (K3 : forall f y y', sweep f y = Ret y' -> created y <= created y').
      { induction f as [|f IH]; intros y y' Q; cbn [sweep] in Q.
        - destruct (cleanups y); [injection Q as <-; lia|discriminate].
        - destruct (cleanups y) as [|k0 l0]; [injection Q as <-; lia|].
          destruct (run_cleanups _ _) as [y1| | |] eqn:Rn; try discriminate. cbn [obind] in Q.
          apply IH in Q. apply K2 in Rn. cbn [created] in Rn. lia. }
      intros R. apply K3 in R. exact R.
    + destruct (exec_keeps _ _ _ _ _ N E) as (-> & _). exact D.
Qed.
Lemma execs_stale fuel t p : forall l x x' r, Inv [] x -> execs fuel l x = Ret (x', r) ->
  (forall k, In k l -> trusts t k) ->
  find_ptr (ptrs x) t = Some p -> In p (destroyed x) ->
  find_ptr (ptrs x') t = Some p /\ In p (destroyed x').
Proof.
  induction l as [|k l IH]; intros x x' r I E T F D.
  - cbn [execs] in E. injection E as <- _. auto.
  - destruct (execs_cons_inv _ _ _ _ _ _ E) as (x1 & a & r2 & E1 & E2 & _).
    destruct (exec_stale _ _ _ _ _ _ _ I E1 (T k (or_introl eq_refl)) F D) as [F1 D1].
    exact (IH _ _ _ (exec_inv _ _ _ _ _ I E1) E2 (fun k0 I0 => T k0 (or_intror I0)) F1 D1).
Qed.

Lemma stale_after_reset fuel l1 c v l2 l3 x r :
  execs fuel (l1 ++ C_get c v :: l2 ++ C_reset :: l3) new_ctx = Ret (x, r) ->
  (forall k, In k l3 -> trusts (type_of c) k) ->
  exists p, find_ptr (ptrs x) (type_of c) = Some p /\ In p (destroyed x) /\ Inv [] x.
Proof.
  intros E T.
  destruct (execs_app_inv _ _ _ _ _ _ E) as (x1 & q1 & q2 & E1 & E2 & _).
  destruct (execs_cons_inv _ _ _ _ _ _ E2) as (x2 & a2 & q3 & E3 & E4 & _).
  destruct (execs_app_inv _ _ _ _ _ _ E4) as (x3 & q4 & q5 & E5 & E6 & _).
  destruct (execs_cons_inv _ _ _ _ _ _ E6) as (x4 & a4 & q6 & E7 & E8 & _).
  pose proof (execs_inv _ _ _ _ _ inv_start E1) as I1.
  pose proof (exec_inv _ _ _ _ _ I1 E3) as I2. pose proof (execs_inv _ _ _ _ _ I2 E5) as I3.
  pose proof (exec_inv _ _ _ _ _ I3 E7) as I4.
  (* an entry persists *)
  assert (S0 : exists p, find_ptr (ptrs x2) (type_of c) = Some p).
  { cbn [exec] in E3. destruct (GetPtr c v x1) as [[y p']| | |] eqn:G1; try discriminate. injection E3 as <- <-.
    exists p'. destruct (get_cases _ _ _ _ _ G1) as [(-> & F & _)|(_ & _ & _ & _ & -> & _)]; [exact F|].
    now rewrite find_set, Nat.eqb_refl. }
  assert (S1 : exists p, find_ptr (ptrs x3) (type_of c) = Some p).
  { clear - S0 E5 I2. revert x2 x3 q4 E5 I2 S0. induction l2 as [|k l2 IH]; intros x2 x3 q4 E5 I2 S0.
    - cbn [execs] in E5. now injection E5 as <- _.
    - destruct (execs_cons_inv _ _ _ _ _ _ E5) as (y1 & b & qq & A & B & _).
      apply (IH _ _ _ B (exec_inv _ _ _ _ _ I2 A)).
      destruct (fetches_dec (type_of c) k) as [Fk|Fk].
      + destruct k as [c'|c' v'|v'|]; cbn [fetches] in Fk; try contradiction. cbn [exec] in A.
        destruct (GetPtr c' v' x2) as [[y p']| | |] eqn:G1; try discriminate. injection A as <- <-.
        destruct (get_cases _ _ _ _ _ G1) as [(-> & _)|(_ & _ & _ & _ & -> & _)]; [exact S0|].
        exists p'. now rewrite find_set, Fk, Nat.eqb_refl.
      + rewrite (exec_find _ _ _ _ _ _ I2 A Fk). exact S0. }
  destruct S1 as [p S1].
  assert (S2 : find_ptr (ptrs x4) (type_of c) = Some p).
  { rewrite (exec_find _ _ _ _ _ (type_of c) I3 E7) by (intros []). exact S1. }
  assert (D4 : In p (destroyed x4)).
  { cbn [exec] in E7. destruct (Reset fuel x3) as [y| | |] eqn:R; try discriminate. injection E7 as <- _.
    destruct (reset_inv _ _ _ I3 R) as (Iy & Cy & Py). destruct (inv_done _ Iy Cy) as [Dy _]. rewrite Dy.
    apply in_seq. pose proof (find_lt _ _ _ _ Iy S2). lia. }
  destruct (execs_stale _ _ _ _ _ _ _ I4 E8 T S2 D4) as [F D].
  exists p. split; [exact F|]. split; [exact D|]. exact (execs_inv _ _ _ _ _ I4 E8).
Qed.

Lemma dead_pointer fuel l1 c v l2 l3 x r a :
  execs fuel (l1 ++ C_get c v :: l2 ++ C_reset :: l3 ++ [C_get c None]) new_ctx = Ret (x, r ++ [a]) ->
  (forall k, In k l3 -> trusts (type_of c) k) ->
  exists p, a = Some p /\ In p (destroyed x) /\ ~ In p (alive x).
Proof.
  intros E T.
  replace (l1 ++ C_get c v :: l2 ++ C_reset :: l3 ++ [C_get c None])
    with ((l1 ++ C_get c v :: l2 ++ C_reset :: l3) ++ [C_get c None]) in E
    by (rewrite <- app_assoc; cbn; rewrite <- app_assoc; reflexivity).
  destruct (execs_app_inv _ _ _ _ _ _ E) as (x1 & q1 & q2 & E1 & E2 & Er).
  destruct (execs_cons_inv _ _ _ _ _ _ E2) as (x2 & a2 & q3 & E3 & E4 & ->).
  cbn [execs] in E4. injection E4 as <- <-. apply app_inj_tail in Er. destruct Er as [_ ->].
  destruct (stale_after_reset _ _ _ _ _ _ _ _ E1 T) as (p & F & D & I).
  cbn [exec] in E3. unfold GetPtr in E3. rewrite F in E3. injection E3 as <- <-.
  exists p. split; [reflexivity|]. split; [exact D|]. rewrite (inv_alive _ _ I). rewrite (inv_order _ _ I) in D. apply in_seq in D. lia.
Qed.

Lemma validate_dead fuel l1 c v l2 l3 x r b :
  execs fuel (l1 ++ C_get c v :: l2 ++ C_reset :: l3) new_ctx = Ret (x, r) ->
  (forall k, In k l3 -> trusts (type_of c) k) ->
  exec fuel (C_get c (Some b)) x = UB.
Proof.
  intros E T. destruct (stale_after_reset _ _ _ _ _ _ _ _ E T) as (p & F & D & I).
  cbn [exec]. unfold GetPtr. rewrite F.
  destruct (is_alive x p) eqn:A; [|reflexivity]. apply is_alive_spec in A. apply (inv_alive _ _ I) in A.
  rewrite (inv_order _ _ I) in D. apply in_seq in D. lia.
Qed.

(** ** Calls return *)
Lemma plain_all l : (fix all (l : list class) := match l with [] => True | d :: l' => plain d /\ all l' end) l <->
  Forall plain l.
Proof. induction l as [|d l IH]; split; intros H; [constructor|exact I|constructor|split]; try inversion H; subst; tauto. Qed.
Lemma nesting_spawn l d : In d l ->
  nesting d <= (fix most (l : list class) := match l with [] => 0 | d :: l' => Nat.max (nesting d) (most l') end) l.
Proof. induction l as [|e l IH]; [intros []|]. intros [<-|I]; [lia|]. specialize (IH I). lia. Qed.

Definition good (n : nat) (x : ctx) : Prop :=
  Forall (fun k => plain (its_class k) /\ nesting (its_class k) <= n) (cleanups x).

Lemma delete_ok k l x n : Inv (k :: l) x -> plain (its_class k) -> nesting (its_class k) <= S n -> good n x ->
  exists x', delete_object k x = Ret x' /\ Inv l x' /\ good n x' /\ ptrs x' = ptrs x.
Proof.
  intros I P N G.
  assert (exists x', delete_object k x = Ret x' /\ good n x') as (x' & E & G').
  { unfold delete_object. destruct (inv_head _ _ _ I) as [Ek Lk].
    assert (is_alive x (object k) = true) as ->. { apply is_alive_spec. apply (inv_alive _ _ I). lia. }
    destruct (its_class k) as [t am sp]. cbn [plain] in P. destruct P as [-> P]. apply plain_all in P.
    cbn [andb]. eexists. split; [reflexivity|]. unfold good. cbn [cleanups].
    eapply Forall_impl; [|apply news_cleanups]. cbn beta.
    intros k' [I'|I'].
    - revert k' I'. apply Forall_forall. exact G.
    - split; [now apply (proj1 (Forall_forall _ _) P)|].
      cbn [nesting] in N. pose proof (nesting_spawn _ _ I'). lia. }
  exists x'. destruct (delete_inv _ _ _ _ I E). auto.
Qed.

Lemma run_ok n : forall l m x, Inv (l ++ m) x ->
  Forall (fun k => plain (its_class k) /\ nesting (its_class k) <= S n) l -> good n x ->
  exists x', run_cleanups l x = Ret x' /\ Inv m x' /\ good n x' /\ ptrs x' = ptrs x.
Proof.
  induction l as [|k l IH]; intros m x I F G; cbn [run_cleanups].
  - exists x. auto.
  - inversion F as [|? ? [P N] F']; subst. cbn [app] in I.
    destruct (delete_ok _ _ _ n I P N G) as (x1 & -> & I1 & G1 & P1). cbn [obind].
    destruct (IH _ _ I1 F' G1) as (x2 & E2 & I2 & G2 & P2). exists x2. split; [exact E2|]. split; [exact I2|]. split; [exact G2|]. now rewrite P2.
Qed.

Lemma sweep_ok : forall n fuel x, Inv [] x -> good n x -> n <= fuel -> exists x', sweep fuel x = Ret x'.
Proof.
  induction n as [|n IH]; intros fuel x I G L.
  - destruct fuel; cbn [sweep]; destruct (cleanups x) as [|k l] eqn:C; eauto.
    all: exfalso; unfold good in G; rewrite C in G; inversion G as [|? ? [_ B]]; subst;
      destruct (its_class k); cbn in B; lia.
  - destruct fuel as [|fuel]; [lia|]. cbn [sweep].
    destruct (cleanups x) as [|k0 l0] eqn:C; [eauto|]. rewrite <- C. clear C k0 l0.
    assert (I0 : Inv (rev (cleanups x) ++ [])
      (mk_ctx (created x) (alive x) [] (ptrs x) (has_nan x) (memory x) (destroyed x))).
    { destruct I as [O L0 T A P]. constructor; cbn [destroyed created alive cleanups ptrs]; auto.
      cbn [rev]. rewrite !app_nil_r. exact T. }
    destruct (run_ok n _ _ _ I0) as (x1 & -> & I1 & G1 & _).
    + apply Forall_rev. exact G.
    + constructor.
    + cbn [obind]. apply (IH _ _ I1 G1). lia.
Qed.

Definition calls_fine (n : nat) (l : list call) : Prop :=
  forall k c, In k l -> class_of k = Some c -> plain c /\ nesting c <= n.

Lemma execs_ok fuel : forall l, calls_fine fuel l -> never_refetched l ->
  exists x r, execs fuel l new_ctx = Ret (x, r) /\ good fuel x.
Proof.
  intros l. induction l as [|k l IH] using rev_ind; intros F H.
  - exists new_ctx, []. split; [reflexivity|constructor].
  - destruct IH as (x1 & r1 & E1 & G1).
    + intros k0 c I0. apply F. apply in_or_app. now left.
    + intros l1 l2 l3 k0 c v ->. apply (H l1 l2 (l3 ++ [k]) k0 c v). rewrite <- app_assoc. cbn. rewrite <- app_assoc. reflexivity.
    + pose proof (execs_inv _ _ _ _ _ inv_start E1) as I1.
      assert (exists x2 a, exec fuel k x1 = Ret (x2, a) /\ good fuel x2) as (x2 & a & E2 & G2).
      { assert (NW : forall c, class_of k = Some c -> good fuel (fst (New c x1))).
        { intros c Ec. constructor; [|exact G1]. cbn. apply (F k); [apply in_or_app; right; now left|exact Ec]. }
        destruct k as [c|c v|v|]; cbn [exec].
        - eexists. eexists. split; [reflexivity|]. exact (NW c eq_refl).
        - assert (FR : fresh_entry (type_of c) x1).
          { apply (fresh_history _ _ _ _ _ E1). intros l1 l2 k -> Fk.
            apply (H l1 l2 [] k c v); [|exact Fk]. rewrite <- app_assoc. reflexivity. }
          unfold GetPtr, fresh_entry in *. specialize (NW c eq_refl).
          destruct (find_ptr (ptrs x1) (type_of c)) as [p|].
          + apply is_alive_spec in FR. rewrite FR. destruct v as [[|]|]; cbn [obind]; eexists; eexists;
              (split; [reflexivity|]); auto.
          + cbn [obind]. eexists. eexists. split; [reflexivity|]. exact NW.
        - eexists. eexists. split; [reflexivity|]. exact G1.
        - unfold Reset.
          destruct (sweep_ok fuel fuel (mk_ctx (created x1) (alive x1) (cleanups x1) (ptrs x1) (has_nan x1)
            (S (memory x1)) (destroyed x1))) as (x2 & E2); [|exact G1|lia|].
          + destruct I1 as [O L T A P]. constructor; auto.
          + rewrite E2. cbn [obind]. eexists. eexists. split; [reflexivity|].
            assert (Inv [] (mk_ctx (created x1) (alive x1) (cleanups x1) (ptrs x1) (has_nan x1)
              (S (memory x1)) (destroyed x1))) as I2 by (destruct I1 as [O L T A P]; constructor; auto).
            destruct (sweep_inv _ _ _ I2 E2) as (_ & C & _). unfold good. rewrite C. constructor. }
      exists x2. exists (r1 ++ [a]). split; [|exact G2].
      rewrite execs_app, E1. cbn [obind execs]. rewrite E2. reflexivity.
Qed.

(** A destructor that uses arena memory of its object, at the next Reset. *)
Lemma arena_first fuel l x r t spawns : 0 < fuel -> execs fuel (l ++ [C_reset]) new_ctx = Ret (x, r) ->
  execs fuel (l ++ [C_reset; C_new (Class t true spawns); C_reset]) new_ctx = UB.
Proof.
  intros Fu E. replace (l ++ [C_reset; C_new (Class t true spawns); C_reset])
    with ((l ++ [C_reset]) ++ [C_new (Class t true spawns); C_reset]) by now rewrite <- app_assoc.
  rewrite execs_app, E. cbn [obind execs exec New].
  destruct (execs_app_inv _ _ _ _ _ _ E) as (x1 & r1 & r2 & E1 & E2 & _).
  destruct (execs_cons_inv _ _ _ _ _ _ E2) as (x2 & a & r3 & E3 & E4 & _).
  cbn [execs] in E4. injection E4 as <- _. cbn [exec] in E3.
  destruct (Reset fuel x1) as [x3| | |] eqn:R; try discriminate. injection E3 as <- _.
  destruct (reset_inv _ _ _ (execs_inv _ _ _ _ _ inv_start E1) R) as (_ & C & _).
  unfold Reset. cbn [created alive cleanups ptrs has_nan memory destroyed]. rewrite C.
  destruct fuel as [|fuel]; [lia|]. cbn [sweep cleanups rev app run_cleanups].
  unfold delete_object, is_alive. cbn [alive object existsb its_class its_memory memory]. rewrite Nat.eqb_refl.
  cbn [orb]. destruct (Nat.eqb_spec (memory x3) (S (memory x3))); [lia|]. reflexivity.
Qed.

(** ** Vectors *)
Local Open Scope Z_scope.

Lemma align8 n : 0 <= n < 2 ^ 32 ->
  align_to_32 n 8 = if n <=? 2 ^ 32 - 8 then 8 * ((n + 7) / 8) else 0.
Proof.
  intros H. unfold align_to_32.
  assert (E : forall m, 0 <= m < 2 ^ 32 -> Z.land m (wrapu 32 (Z.lnot (8 - 1))) = 8 * (m / 8)).
  { intros m Hm. change (wrapu 32 (Z.lnot (8 - 1))) with (Z.shiftl (Z.ones 29) 3).
    change 8 with (2 ^ 3). rewrite <- Z.shiftr_div_pow2 by lia. rewrite Z.mul_comm.
    rewrite <- Z.shiftl_mul_pow2 by lia. apply Z.bits_inj'. intros k Hk.
    rewrite Z.land_spec, !Z.shiftl_spec by lia.
    destruct (Z.ltb_spec k 3).
    - rewrite !(Z.testbit_neg_r _ (k - 3)) by lia. apply andb_false_r.
    - rewrite Z.shiftr_spec by lia. replace (k - 3 + 3) with k by lia.
      destruct (Z.ltb_spec k 32).
      + rewrite Z.ones_spec_low by lia. apply andb_true_r.
      + rewrite Z.ones_spec_high by lia. rewrite andb_false_r. symmetry.
        rewrite <- (Z.mod_small m (2 ^ 32)) by lia. apply Z.mod_pow2_bits_high. lia. }
  replace (n + 8 - 1) with (n + 7) by lia.
  destruct (Z.leb_spec n (2 ^ 32 - 8)).
  - rewrite wrapu_id by (unfold in_u; lia). apply E. lia.
  - assert (wrapu 32 (n + 7) = n + 7 - 2 ^ 32) as ->.
    { unfold wrapu. symmetry. apply Z.mod_unique with (q := 1). left; lia. lia. }
    rewrite E by lia. rewrite (Z.div_small (n + 7 - 2 ^ 32)) by lia. reflexivity.
Qed.

Lemma bits_bytes n : 0 <= n < 2 ^ 62 -> bytes_for_bits n = (n + 7) / 8.
Proof.
  intros H. unfold bytes_for_bits. pows. pose proof (Z.div_mod n 8 ltac:(lia)). pose proof (Z.mod_pos_bound n 8 ltac:(lia)).
  destruct (Z.ltb_spec 0 (n mod 8)).
  - rewrite wrapu_id by (unfold in_u; pows; lia).
    apply Z.div_unique with (r := n mod 8 - 1). left; lia. lia.
  - apply Z.div_unique with (r := 7). left; lia. lia.
Qed.

Lemma size_bytes e v : 0 <= Size v -> SizeByBytes (is_bit e) (sizeof_element e) v = bytes_needed e (Size v).
Proof.
  intros H. unfold SizeByBytes. destruct e as [|s]; cbn [is_bit bytes_needed sizeof_element]; [|reflexivity].
  pose proof (Z.div_mod (Size v) 8 ltac:(lia)). pose proof (Z.mod_pos_bound (Size v) 8 ltac:(lia)).
  destruct (Z.eqb_spec (Size v mod 8) 0); cbn [negb].
  - apply Z.div_unique with (r := 7). left; lia. lia.
  - apply Z.div_unique with (r := Size v mod 8 - 1). left; lia. lia.
Qed.

Definition element_ok (e : element) : Prop := 1 <= sizeof_element e < 2 ^ 32.

(** NewEmptyVector: the region is as large as the elements exactly when that is at most 2^32 - 8 bytes. *)
Lemma empty_vector_room e n cap : element_ok e -> 0 <= n < 2 ^ 30 ->
  let (bytes, v) := NewEmptyVector e n cap in
  Size v = n /\ writable_ v = true /\ data_ v = 0 /\
  (SizeByBytes (is_bit e) (sizeof_element e) v <= bytes <-> bytes_needed e n <= 2 ^ 32 - 8).
Proof.
  intros He Hn. unfold NewEmptyVector. cbv zeta. unfold vector_of.
  set (c := if cap <? n then n else cap).
  pose proof (make_vec_ok 0 n (wrapu 64 (c * sizeof_element e)) false Hn) as Sz.
  split; [exact Sz|]. split; [reflexivity|]. split; [reflexivity|].
  rewrite size_bytes by lia. rewrite Sz. clear Sz.
  unfold element_ok in He. pows. destruct e as [|s]; cbn [bytes_needed sizeof_element] in *.
  - rewrite bits_bytes by (pows; lia).
    assert (0 <= (n + 7) / 8 <= 2 ^ 28) as B.
    { pows. split; [apply Z.div_pos; lia|]. apply Z.div_le_upper_bound; lia. }
    pows. rewrite (wrapu_id 32) by (unfold in_u; pows; lia). rewrite align8 by (pows; lia).
    pows. destruct (Z.leb_spec ((n + 7) / 8) (4294967296 - 8)); [|lia].
    pose proof (Z.div_mod ((n + 7) / 8 + 7) 8 ltac:(lia)). pose proof (Z.mod_pos_bound ((n + 7) / 8 + 7) 8 ltac:(lia)).
    lia.
  - assert (0 <= s * n) by nia.
    rewrite (wrapu_id 64) by (unfold in_u; pows; nia).
    replace (n * s) with (s * n) by lia.
    assert (R : in_u 32 (wrapu 32 (s * n))) by (apply wrapu_range; lia). unfold in_u in R.
    rewrite align8 by exact R.
    destruct (Z.leb_spec (s * n) (4294967296 - 8)).
    + assert (wrapu 32 (s * n) = s * n) as -> by (apply wrapu_id; unfold in_u; pows; lia).
      pows. destruct (Z.leb_spec (s * n) (4294967296 - 8)); [|lia].
      pose proof (Z.div_mod (s * n + 7) 8 ltac:(lia)). pose proof (Z.mod_pos_bound (s * n + 7) 8 ltac:(lia)). lia.
    + split; [|lia]. intros B. exfalso. pows. revert B.
      destruct (Z.leb_spec (wrapu 32 (s * n)) (4294967296 - 8)); [|lia].
      pose proof (Z.div_mod (wrapu 32 (s * n) + 7) 8 ltac:(lia)).
      pose proof (Z.mod_pos_bound (wrapu 32 (s * n) + 7) 8 ltac:(lia)).
      assert (4294967296 <= s * n).
      { destruct (Z_lt_dec (s * n) 4294967296); [|lia].
        rewrite (wrapu_id 32 (s * n)) in * by (unfold in_u; pows; lia). lia. }
      intros B. lia.
Qed.

Lemma empty_vector_capacity e n cap : element_ok e -> 0 <= n -> 0 <= cap ->
  Z.max n cap * sizeof_element e < 2 ^ 30 ->
  capacity_ (snd (NewEmptyVector e n cap)) = Z.max n cap * sizeof_element e /\
  n <= capacity_ (snd (NewEmptyVector e n cap)).
Proof.
  intros He Hn Hc H. unfold element_ok in He. unfold NewEmptyVector. cbn [snd]. unfold vector_of, make_vec. cbn [capacity_].
  replace (if cap <? n then n else cap) with (Z.max n cap) by (destruct (Z.ltb_spec cap n); lia).
  pows. assert (0 <= Z.max n cap * sizeof_element e) by nia.
  rewrite (wrapu_id 64) by (unfold in_u; pows; lia).
  destruct (Z.eqb_spec (Z.max n cap * sizeof_element e) 0) as [Z0|Z0].
  - assert (n = 0) by nia. subst n. rewrite Z0. change (wrapu 30 0) with 0. lia.
  - rewrite wrapu_id by (unfold in_u; pows; lia). split; [reflexivity|]. nia.
Qed.

Lemma empty_vector_capacity_wraps e n cap : element_ok e -> 0 <= n < 2 ^ 30 -> 0 <= cap <= n ->
  2 ^ 30 <= n * sizeof_element e ->
  capacity_ (snd (NewEmptyVector e n cap)) = (n * sizeof_element e) mod 2 ^ 30.
Proof.
  intros He Hn Hc H. unfold element_ok in He. unfold NewEmptyVector. cbn [snd]. unfold vector_of, make_vec. cbn [capacity_].
  replace (if cap <? n then n else cap) with n by (destruct (Z.ltb_spec cap n); lia).
  pows. rewrite (wrapu_id 64) by (unfold in_u; pows; nia).
  destruct (Z.eqb_spec (n * sizeof_element e) 0) as [Z0|Z0]; [lia|]. unfold wrapu. reflexivity.
Qed.

Lemma new_vector_room e n : element_ok e -> 0 <= n < 2 ^ 30 ->
  let (bytes, v) := NewVector e n in
  Size v = n /\ data_ v = 0 /\ SizeByBytes (is_bit e) (sizeof_element e) v <= bytes.
Proof.
  intros He Hn. unfold NewVector, vector_of.
  pose proof (make_vec_ok 0 n (wrapu 64 (n * sizeof_element e)) false Hn) as Sz.
  split; [exact Sz|]. split; [reflexivity|]. rewrite size_bytes by lia. rewrite Sz.
  unfold element_ok in He. pows. rewrite wrapu_id by (unfold in_u; pows; nia).
  destruct e as [|s]; cbn [bytes_needed sizeof_element] in *; [|lia].
  destruct (Z.eq_dec n 0) as [->|]; [discriminate|]. apply Z.div_le_upper_bound; lia.
Qed.

Lemma fill_ok : forall data i mem, 0 <= i -> i + Z.of_nat (length data) <= 8 * Z.of_nat (length mem) ->
  exists mem', fill_bits data i mem = Ret mem' /\ length mem' = length mem /\
    forall j, 0 <= j < 8 * Z.of_nat (length mem) ->
      Z.testbit (nth (Z.to_nat (j / 8)) mem' 0) (j mod 8) =
      (if (i <=? j) && (j <? i + Z.of_nat (length data)) then nth (Z.to_nat (j - i)) data false
       else Z.testbit (nth (Z.to_nat (j / 8)) mem 0) (j mod 8)).
Proof.
  induction data as [|b data IH]; intros i mem Hi H; cbn [fill_bits length] in *.
  - exists mem. repeat split; auto. intros j Hj.
    destruct (Z.leb_spec i j), (Z.ltb_spec j (i + Z.of_nat 0)); cbn [andb]; auto. lia.
  - assert (B : 0 <= i / 8 < Z.of_nat (length mem)).
    { split; [apply Z.div_pos; lia|]. apply Z.div_lt_upper_bound; lia. }
    rewrite (load_ret mem (i / 8) 0) by exact B. cbn [obind].
    rewrite store_ret by exact B. cbn [obind].
    set (y := nth (Z.to_nat (i / 8)) mem 0).
    change (if b then bit_set y (i mod 8) else bit_clear y (i mod 8)) with (new_byte b y (i mod 8)).
    set (mem1 := upd mem (Z.to_nat (i / 8)) (new_byte b y (i mod 8))).
    assert (L1 : length mem1 = length mem) by apply upd_length.
    destruct (IH (i + 1) mem1) as (mem' & -> & L & Sp); [lia|rewrite L1; lia|].
    exists mem'. split; [reflexivity|]. split; [congruence|]. rewrite L1 in Sp.
    intros j Hj. rewrite Sp by exact Hj.
    pose proof (Z.mod_pos_bound i 8 ltac:(lia)). pose proof (Z.mod_pos_bound j 8 ltac:(lia)).
    destruct (Z.eq_dec j i) as [->|Nij].
    + destruct (Z.leb_spec (i + 1) i); [lia|]. cbn [andb].
      destruct (Z.leb_spec i i); [|lia]. destruct (Z.ltb_spec i (i + Z.of_nat (S (length data)))); [|lia].
      cbn [andb]. replace (i - i) with 0 by lia. cbn [nth Z.to_nat].
      unfold mem1. rewrite nth_upd by lia. rewrite Nat.eqb_refl.
      rewrite new_byte_spec by lia. rewrite Z.eqb_refl. reflexivity.
    + assert (K : Z.testbit (nth (Z.to_nat (j / 8)) mem1 0) (j mod 8) = Z.testbit (nth (Z.to_nat (j / 8)) mem 0) (j mod 8)).
      { unfold mem1. rewrite nth_upd by lia. pose proof (Z.div_pos j 8 ltac:(lia) ltac:(lia)).
        destruct (Nat.eqb_spec (Z.to_nat (j / 8)) (Z.to_nat (i / 8))) as [E|E]; [|reflexivity].
        assert (E' : i / 8 = j / 8) by lia. rewrite new_byte_spec by lia.
        destruct (Z.eqb_spec (j mod 8) (i mod 8)) as [E2|E2].
        - exfalso. apply Nij. apply div_mod_eq; congruence.
        - unfold y. rewrite E'. reflexivity. }
      rewrite K. clear K.
      destruct (Z.leb_spec (i + 1) j), (Z.leb_spec i j), (Z.ltb_spec j (i + 1 + Z.of_nat (length data))),
        (Z.ltb_spec j (i + Z.of_nat (S (length data)))); cbn [andb]; try reflexivity; try lia.
      replace (Z.to_nat (j - i)) with (S (Z.to_nat (j - (i + 1)))) by lia. reflexivity.
Qed.

Lemma bool_vector data garbage : Z.of_nat (length data) < 2 ^ 30 ->
  (forall k, 0 <= k -> Z.of_nat (length (garbage k)) = k) ->
  exists mem v, NewVectorBool data garbage = Ret (mem, v) /\ Size v = Z.of_nat (length data) /\
    Z.of_nat (length mem) = (Z.of_nat (length data) + 7) / 8 /\
    forall i b, nth_error data i = Some b -> bit_get mem v (Z.of_nat i) = Ret b.
Proof.
  intros Hn Hg. unfold NewVectorBool. cbv zeta. set (n := Z.of_nat (length data)) in *.
  rewrite bits_bytes by (pows; lia).
  assert (B : 0 <= (n + 7) / 8) by (apply Z.div_pos; lia).
  pose proof (Z.div_mod (n + 7) 8 ltac:(lia)). pose proof (Z.mod_pos_bound (n + 7) 8 ltac:(lia)).
  specialize (Hg _ B).
  destruct (fill_ok data 0 (garbage ((n + 7) / 8))) as (mem & -> & L & Sp); [lia|rewrite Hg; unfold n in *; lia|].
  cbn [obind]. eexists. eexists. split; [reflexivity|].
  pose proof (make_vec_ok 0 n (wrapu 64 (n * sizeof_element E_bit)) false ltac:(lia)) as Sz.
  split; [exact Sz|]. split; [rewrite L; exact Hg|].
  intros i b Hb. assert (Hi : (i < length data)%nat) by (apply nth_error_Some; congruence).
  assert (D : Z.of_nat i / 8 < Z.of_nat (length mem)).
  { rewrite L, Hg. apply Z.div_lt_upper_bound; unfold n in *; lia. }
  pose proof (Z.div_pos (Z.of_nat i) 8 ltac:(lia) ltac:(lia)).
  unfold bit_get. unfold vector_of, make_vec. cbn [data_]. rewrite Z.add_0_l.
  rewrite (load_ret _ _ 0) by lia. cbn [obind].
  assert (T : (0 <? Z.land (Z.shiftr (nth (Z.to_nat (Z.of_nat i / 8)) mem 0) (Z.of_nat i mod 8)) 1) =
              Z.testbit (nth (Z.to_nat (Z.of_nat i / 8)) mem 0) (Z.of_nat i mod 8)).
  { set (b0 := nth _ mem 0). pose proof (Z.mod_pos_bound (Z.of_nat i) 8 ltac:(lia)).
    change 1 with (Z.ones 1). rewrite Z.land_ones by lia. change (2 ^ 1) with 2.
    rewrite <- Z.bit0_mod. rewrite Z.shiftr_spec by lia. cbn [Z.add]. rewrite Z.add_0_l.
    destruct (Z.testbit b0 (Z.of_nat i mod 8)); reflexivity. }
  rewrite T, Sp by (rewrite Hg; unfold n in *; lia).
  destruct (Z.leb_spec 0 (Z.of_nat i)); [|lia]. destruct (Z.ltb_spec (Z.of_nat i) (0 + Z.of_nat (length data))); [|lia].
  cbn [andb]. rewrite Z.sub_0_r, Nat2Z.id. f_equal. now apply nth_error_nth.
Qed.

Lemma capacity_not_allocated s n cap : 1 <= s -> 0 <= n -> n * s + 8 <= cap * s -> cap * s < 2 ^ 30 ->
  fst (NewEmptyVector (E_bytes s) n cap) < capacity_ (snd (NewEmptyVector (E_bytes s) n cap)).
Proof.
  intros Hs Hn H1 H2. assert (n < cap) by nia. pows.
  assert (cap <= cap * s) by nia. assert (s <= cap * s) by nia.
  destruct (empty_vector_capacity (E_bytes s) n cap) as [-> _]; try (cbn [sizeof_element]; lia).
  - unfold element_ok. cbn [sizeof_element]. pows. lia.
  - cbn [sizeof_element]. rewrite Z.max_r by lia. unfold NewEmptyVector. cbn [fst].
    assert (0 <= s * n < 1073741824) by nia.
    rewrite (wrapu_id 64) by (unfold in_u; pows; lia). rewrite (wrapu_id 32) by (unfold in_u; pows; lia).
    rewrite align8 by (pows; lia). pows. destruct (Z.leb_spec (s * n) (4294967296 - 8)); [|lia].
    pose proof (Z.div_mod (s * n + 7) 8 ltac:(lia)). pose proof (Z.mod_pos_bound (s * n + 7) 8 ltac:(lia)). lia.
Qed.

Lemma empty_vector_size_wraps e n cap : 2 ^ 30 <= n -> Size (snd (NewEmptyVector e n cap)) < n.
Proof.
  intros H. unfold NewEmptyVector, vector_of, make_vec, Size. cbn [snd size_].
  pose proof (wrapu_range 30 n ltac:(lia)) as R. unfold in_u in R. lia.
Qed.

Lemma no_get_after_reset l : (forall l1 l2, l = l1 ++ C_reset :: l2 -> forall c v, ~ In (C_get c v) l2) ->
  never_refetched l.
Proof.
  intros H l1 l2 l3 k c v -> _ J. apply in_split in J. destruct J as (m1 & m2 & ->).
  apply (H (l1 ++ k :: m1) (m2 ++ C_get c v :: l3)) with (c := c) (v := v).
  - repeat first [rewrite <- app_assoc | rewrite <- app_comm_cons]. reflexivity.
  - apply in_or_app. right. now left.
Qed.
