(** Proofs for Pb_Props. *)
From Coq Require Import List Bool Arith ZArith Lia.
Import ListNotations.
From Verif Require Import Base Lexer_Model Pb_Model Pb_Spec.
From Verif Require Lexer_Proofs.
Local Open Scope Z_scope.

Section Proofs.
Context {N K : Type}.
Variable num_eqb : N -> N -> bool.
Variable zero : N.
Variable key_eqb : K -> K -> bool.
Notation elem := (elem N). Notation field := (field N K). Notation heap := (heap N K). Notation value := (value N). Notation method := (method N K).
Notation call := (call N num_eqb zero K key_eqb). Notation run := (run N num_eqb zero K key_eqb).
Notation find_field := (find_field N K). Notation set_field := (set_field N K).

Lemma text_eqb_eq a b : text_eqb a b = true <-> a = b.
Proof. apply Lexer_Proofs.text_eqb_eq. Qed.
Lemma find_in m f v : find_field m f = Some v -> In (f, v) m.
Proof.
  unfold Pb_Model.find_field. destruct (find _ m) as [[g w]|] eqn:E; [|discriminate]. intros H. injection H as <-. apply find_some in E as [E1 E2]. cbn [fst snd] in *. apply text_eqb_eq in E2. now subst g.
Qed.
Lemma text_refl f : text_eqb f f = true.
Proof. now apply text_eqb_eq. Qed.
Lemma find_set m f v g : find_field m f <> None -> find_field (set_field m f v) g = if text_eqb g f then Some v else find_field m g.
Proof.
  unfold Pb_Model.find_field. induction m as [|[x w] m IH]; intros H; [now elim H|]. cbn [Pb_Model.set_field find fst] in *. destruct (text_eqb x f) eqn:E.
  - apply text_eqb_eq in E. subst x. cbn [find fst]. destruct (text_eqb f g) eqn:Q.
    + apply text_eqb_eq in Q. subst g. now rewrite text_refl.
    + destruct (text_eqb g f) eqn:Q2; [|reflexivity]. apply text_eqb_eq in Q2. subst g. now rewrite text_refl in Q.
  - cbn [find fst]. specialize (IH H). destruct (text_eqb x g) eqn:Q; [|exact IH]. apply text_eqb_eq in Q. subst x. rewrite E. reflexivity.
Qed.
Lemma set_forall (P : field -> Prop) m f v : P v -> Forall (fun x => P (snd x)) m -> Forall (fun x => P (snd x)) (set_field m f v).
Proof. intros Pv. induction 1 as [|[g w] m H R IH]; cbn [Pb_Model.set_field]; [constructor|]. destruct (text_eqb g f); constructor; auto. Qed.

(** *** Nothing dangles *)
Lemma store_live h a m b : live h b -> live (store N K h a m) b.
Proof. unfold live, store. destruct (Nat.eqb b a); [discriminate|auto]. Qed.
Lemma live_elem_mono (h h' : heap) e : (forall b, live h b -> live h' b) -> live_elem h e -> live_elem h' e.
Proof. destruct e; cbn; auto. Qed.
Lemma live_field_mono (h h' : heap) v : (forall b, live h b -> live h' b) -> live_field h v -> live_field h' v.
Proof.
  intros M. destruct v as [n|t|d a|l|k l|a|[[k l]|]]; cbn [live_field]; auto.
  - intros [H1 H2]. auto.
  - intros H. eapply Forall_impl; [|exact H]. intros e. now apply live_elem_mono.
  - intros H. eapply Forall_impl; [|exact H]. intros e. now apply live_elem_mono.
  - intros H. eapply Forall_impl; [|exact H]. intros e. now apply live_elem_mono.
Qed.
Definition plain_field (v : field) : Prop := match v with FNum _ _ _ | FStr _ _ _ => True | _ => False end.
Lemma set_keeps (h : heap) vs a m f v w : nothing_dangles h vs -> h a = Some m -> find_field m f = Some w -> plain_field w -> plain_field v ->
  nothing_dangles (store N K h a (set_field m f v)) vs.
Proof.
  intros [H1 H2] Ha Hf Pw Pv. set (h' := store N K h a (set_field m f v)).
  assert (forall b, live h b -> live h' b) as M by (intros b; apply store_live). split.
  - intros b m' E. unfold h', store in E. destruct (Nat.eqb b a) eqn:Q.
    + injection E as <-. apply set_forall; [now destruct v|]. eapply Forall_impl; [|exact (H1 a m Ha)]. intros x. now apply live_field_mono.
    + eapply Forall_impl; [|exact (H1 b m' E)]. intros x. now apply live_field_mono.
  - eapply Forall_impl; [|exact H2]. intros [n|z|b|t| |[b|]|[[b g]|]|[[k l]|]|t]; cbn [live_value]; auto.
    + intros (m1 & x & E1 & E2 & C). unfold h', store. destruct (Nat.eqb b a) eqn:Q; [|eauto]. apply Nat.eqb_eq in Q. subst b. assert (m1 = m) as -> by congruence.
      exists (set_field m f v), x. split; [reflexivity|]. split; [|exact C]. rewrite find_set by congruence. destruct (text_eqb g f) eqn:Q; [|exact E2]. apply text_eqb_eq in Q. subst g. assert (x = w) as -> by congruence. now destruct w.
    + intros H. eapply Forall_impl; [|exact H]. intros e. now apply live_elem_mono.
Qed.
Lemma getter_live (h : heap) a m f v : h a = Some m -> find_field m f = Some v -> live_field h v -> live_value h (getter N K a f v).
Proof.
  intros Ha Hf L. destruct v as [n|t|d [b|]|l|k l|[b|]|[[k l]|]]; cbn [getter live_value live_field] in *; try exact Logic.I; try exact L; try exact (L b eq_refl).
  - exact (proj2 L b eq_refl).
  - exact (proj1 L).
  - exists m, (FRep _ _ l). repeat split; assumption.
  - exists m, (FMap _ _ k l). repeat split; assumption.
Qed.
Lemma passed_live (h : heap) (e : elem) : live_elem h e -> live_value h (passed N e) /\ live_value h (fpassed N e).
Proof. destruct e; cbn; auto. Qed.
Lemma nothing_live (h : heap) k : live_value h (nothing N zero k) /\ live_value h (fnothing N zero k).
Proof. destruct k; cbn; auto. Qed.
Lemma call_live h vs x o h' y : nothing_dangles h vs -> live_value h x -> call h x o = Ret (h', y) -> nothing_dangles h' (vs ++ [y]).
Proof.
  intros D L E. pose proof D as [D1 D2].
  assert (forall y, live_value h y -> nothing_dangles h (vs ++ [y])) as Q. { intros z Hz. split; [exact D1|]. apply Forall_app. auto. }
  destruct x as [n|z|b|t| |[a|]|c|[[k l]|]|t], o as [f|f n0|f t0|k0| |k0|i| |n0|n0|i|]; cbn [Pb_Model.call] in E; try discriminate E.
  - destruct (h a) as [m|] eqn:Ha; [|discriminate E]. destruct (find_field m f) as [v|] eqn:Hf; [|discriminate E]. injection E as <- <-. apply Q. apply getter_live with m; auto. pose proof (D1 a m Ha) as F. rewrite Forall_forall in F. exact (F _ (find_in _ _ _ Hf)).
  - destruct (h a) as [m|] eqn:Ha; [|discriminate E]. destruct (find_field m f) as [[]|] eqn:Hf; try discriminate E. injection E as <- <-. destruct (set_keeps h vs a m f (FNum _ _ n0) _ D Ha Hf Logic.I Logic.I) as [S1 S2]. split; [exact S1|]. apply Forall_app. repeat constructor. exact S2.
  - destruct (h a) as [m|] eqn:Ha; [|discriminate E]. destruct (find_field m f) as [[]|] eqn:Hf; try discriminate E. injection E as <- <-. destruct (set_keeps h vs a m f (FStr _ _ t0) _ D Ha Hf Logic.I Logic.I) as [S1 S2]. split; [exact S1|]. apply Forall_app. repeat constructor. exact S2.
  - destruct c as [[a g]|]; cbn [container obind] in E; [|discriminate E]. destruct (h a) as [m|] eqn:Ha; [|discriminate E]. destruct (find_field m g) as [v|] eqn:Hf; [|discriminate E]. cbn [obind] in E. destruct v; try discriminate E. injection E as <- <-. apply Q.
    destruct (find _ l) as [[k1 e]|] eqn:Ek; [|apply nothing_live]. apply find_some in Ek as [Ek _]. pose proof (D1 a m Ha) as F. rewrite Forall_forall in F. specialize (F _ (find_in _ _ _ Hf)). cbn [snd live_field] in F. rewrite Forall_forall in F. apply passed_live. exact (F _ Ek).
  - destruct c as [[a g]|]; cbn [container obind] in E; [|injection E as <- <-; now apply Q]. destruct (h a) as [m|] eqn:Ha; [|discriminate E]. destruct (find_field m g) as [v|] eqn:Hf; [|discriminate E]. cbn [obind] in E. destruct v; try discriminate E. injection E as <- <-. now apply Q.
  - destruct c as [[a g]|]; cbn [container obind] in E; [|injection E as <- <-; now apply Q]. destruct (h a) as [m|] eqn:Ha; [|discriminate E]. destruct (find_field m g) as [v|] eqn:Hf; [|discriminate E]. cbn [obind] in E. destruct v; try discriminate E. injection E as <- <-. now apply Q.
  - destruct c as [[a g]|]; cbn [container obind] in E; [|discriminate E]. destruct (h a) as [m|] eqn:Ha; [|discriminate E]. destruct (find_field m g) as [v|] eqn:Hf; [|discriminate E]. cbn [obind] in E. destruct v; try discriminate E. cbn zeta in E. destruct (wraps 32 i <? 0); [discriminate E|]. destruct (nth_error l _) as [e|] eqn:Ee; [|discriminate E]. injection E as <- <-. apply Q.
    pose proof (D1 a m Ha) as F. rewrite Forall_forall in F. specialize (F _ (find_in _ _ _ Hf)). cbn [snd live_field] in F. rewrite Forall_forall in F. apply passed_live. exact (F _ (nth_error_In _ _ Ee)).
  - destruct c as [[a g]|]; cbn [container obind] in E; [|injection E as <- <-; now apply Q]. destruct (h a) as [m|] eqn:Ha; [|discriminate E]. destruct (find_field m g) as [v|] eqn:Hf; [|discriminate E]. cbn [obind] in E. destruct v; try discriminate E. injection E as <- <-. now apply Q.
  - destruct c as [[a g]|]; cbn [container obind] in E; [|injection E as <- <-; now apply Q]. destruct (h a) as [m|] eqn:Ha; [|discriminate E]. destruct (find_field m g) as [v|] eqn:Hf; [|discriminate E]. cbn [obind] in E. destruct v; try discriminate E. destruct (find_from _ _ _ _ _); [|discriminate E]. injection E as <- <-. now apply Q.
  - destruct c as [[a g]|]; cbn [container obind] in E; [|injection E as <- <-; now apply Q]. destruct (h a) as [m|] eqn:Ha; [|discriminate E]. destruct (find_field m g) as [v|] eqn:Hf; [|discriminate E]. cbn [obind] in E. destruct v; try discriminate E. destruct (find_from _ _ _ _ _); [|discriminate E]. injection E as <- <-. now apply Q.
  - cbn zeta in E. destruct (_ <=? _); [injection E as <- <-; apply Q; apply nothing_live|]. destruct (nth_error l _) as [e|] eqn:Ee; [|discriminate E]. injection E as <- <-. apply Q. cbn [live_value] in L. rewrite Forall_forall in L. apply passed_live. exact (L _ (nth_error_In _ _ Ee)).
  - injection E as <- <-. now apply Q.
  - injection E as <- <-. now apply Q.
Qed.
(** *** Undefined calls *)
Lemma nth_range {A} (l : list A) i : 0 <= i < Z.of_nat (length l) -> exists e, nth_error l (Z.to_nat i) = Some e.
Proof. intros H. destruct (nth_error l (Z.to_nat i)) as [e|] eqn:E; [eauto|]. apply nth_error_None in E. lia. Qed.
Lemma call_ub h vs x o : nothing_dangles h vs -> live_value h x -> (call h x o = UB <-> unchecked h x o).
Proof.
  intros [D1 D2] L.
  destruct x as [n|z|b|t| |[a|]|[[a g]|]|[[k l]|]|t], o as [f|f n0|f t0|k0| |k0|i| |n0|n0|i|]; cbn [Pb_Model.call unchecked container obind]; try (split; [discriminate|contradiction]).
  - cbn [live_value] in L. unfold live in L. destruct (h a) as [m|]; [|now elim L]. destruct (find_field m f); (split; [discriminate|contradiction]).
  - cbn [live_value] in L. unfold live in L. destruct (h a) as [m|]; [|now elim L]. destruct (find_field m f) as [[]|]; (split; [discriminate|contradiction]).
  - cbn [live_value] in L. unfold live in L. destruct (h a) as [m|]; [|now elim L]. destruct (find_field m f) as [[]|]; (split; [discriminate|contradiction]).
  - split; auto.
  - destruct L as (m & v & Ha & Hf & C). rewrite Ha, Hf. cbn [obind]. destruct v; (split; [discriminate|contradiction]).
  - destruct L as (m & v & Ha & Hf & C). rewrite Ha, Hf. cbn [obind]. destruct v; (split; [discriminate|contradiction]).
  - destruct L as (m & v & Ha & Hf & C). rewrite Ha, Hf. cbn [obind]. destruct v; (split; [discriminate|contradiction]).
  - destruct L as (m & v & Ha & Hf & C). rewrite Ha, Hf. cbn [obind]. destruct v as [| | |l| | |]; try contradiction.
    + cbn zeta. destruct (Z.ltb_spec (wraps 32 i) 0) as [Q|Q].
      * split; [|reflexivity]. intros _. exists m, l. repeat split; auto. lia.
      * destruct (Z_lt_dec (wraps 32 i) (Z.of_nat (length l))) as [R|R].
        -- destruct (nth_range l (wraps 32 i) ltac:(lia)) as (e & ->). split; [discriminate|]. intros (m1 & l1 & E1 & E2 & B). assert (m1 = m) as -> by congruence. assert (l1 = l) as -> by congruence. lia.
        -- assert (nth_error l (Z.to_nat (wraps 32 i)) = None) as -> by (apply nth_error_None; lia). split; [|reflexivity]. intros _. exists m, l. repeat split; auto. lia.
    + split; [discriminate|]. intros (m1 & l1 & E1 & E2 & B). congruence.
  - destruct L as (m & v & Ha & Hf & C). rewrite Ha, Hf. cbn [obind]. destruct v; (split; [discriminate|contradiction]).
  - destruct L as (m & v & Ha & Hf & C). rewrite Ha, Hf. cbn [obind]. destruct v; try (split; [discriminate|contradiction]). destruct (find_from _ _ _ _ _); (split; [discriminate|contradiction]).
  - destruct L as (m & v & Ha & Hf & C). rewrite Ha, Hf. cbn [obind]. destruct v; try (split; [discriminate|contradiction]). destruct (find_from _ _ _ _ _); (split; [discriminate|contradiction]).
  - cbn zeta. destruct (Z.leb_spec (Z.of_nat (length l)) (wrapu 32 i)); [split; [discriminate|contradiction]|]. assert (0 <= wrapu 32 i) by (apply (wrapu_range 32 i); lia). destruct (nth_range l (wrapu 32 i) ltac:(lia)) as (e & ->). split; [discriminate|contradiction].
Qed.
Lemma run_ub os : forall h vs, nothing_dangles h vs ->
  (run h vs os = UB <-> exists pre i o post h' vs' x, os = pre ++ (i, o) :: post /\ run h vs pre = Ret (h', vs') /\ nth_error vs' i = Some x /\ unchecked h' x o).
Proof.
  induction os as [|[i o] os IH]; intros h vs D; cbn [Pb_Model.run].
  - split; [discriminate|]. intros (pre & i & o & post & h' & vs' & x & E & _). now destruct pre.
  - split.
    + destruct (nth_error vs i) as [x|] eqn:Ex; [|discriminate]. assert (live_value h x) as L. { destruct D as [_ D2]. rewrite Forall_forall in D2. exact (D2 _ (nth_error_In _ _ Ex)). }
      destruct (call h x o) as [[h1 y]| | |] eqn:Ec; try discriminate; intros E; cbn [obind] in E.
      * apply (IH h1 (vs ++ [y]) (call_live _ _ _ _ _ _ D L Ec)) in E as (pre & i1 & o1 & post & h' & vs' & x1 & -> & R & H1 & H2). exists ((i, o) :: pre), i1, o1, post, h', vs', x1. split; [reflexivity|]. split; [|auto]. cbn [Pb_Model.run]. rewrite Ex, Ec. exact R.
      * exists [], i, o, os, h, vs, x. repeat split; auto. now apply (call_ub h vs x o D L).
    + intros (pre & i1 & o1 & post & h' & vs' & x & E & R & H1 & H2). destruct pre as [|[i2 o2] pre]; cbn [app] in E; injection E as -> -> ->.
      * cbn [Pb_Model.run] in R. injection R as <- <-. rewrite H1. assert (live_value h x) as L. { destruct D as [_ D2]. rewrite Forall_forall in D2. exact (D2 _ (nth_error_In _ _ H1)). }
        apply (call_ub h vs x o1 D L) in H2. now rewrite H2.
      * cbn [Pb_Model.run] in R. destruct (nth_error vs i2) as [z|] eqn:Ez; [|discriminate R]. destruct (call h z o2) as [[h1 y]| | |] eqn:Ec; try discriminate R. cbn [obind] in *.
        assert (live_value h z) as L. { destruct D as [_ D2]. rewrite Forall_forall in D2. exact (D2 _ (nth_error_In _ _ Ez)). }
        apply (IH h1 (vs ++ [y]) (call_live _ _ _ _ _ _ D L Ec)). exists pre, i1, o1, post, h', vs', x. auto.
Qed.
(** *** Reading *)
Lemma call_reads h x o h' y : writes o = false -> call h x o = Ret (h', y) -> h' = h.
Proof.
  intros Wr E. destruct x as [n|z|b|t| |[a|]|c|[[k l]|]|t], o as [f|f n0|f t0|k0| |k0|i| |n0|n0|i|]; cbn [Pb_Model.call] in E; try discriminate E; try discriminate Wr; try (injection E as <- <-; reflexivity).
  1: { destruct (h a) as [m|]; [|discriminate E]. destruct (find_field m f); [|discriminate E]. now injection E as <- <-. }
  all: try (destruct (container N K h c) as [[[]|]| | |]; try discriminate E; cbn [obind] in E; cbn zeta in E; try (destruct (_ <? 0); [discriminate E|]); try (destruct (nth_error _ _); [|discriminate E]); try (destruct (find_from _ _ _ _ _); [|discriminate E]); now injection E as <- <-).
  cbn zeta in E. destruct (_ <=? _); [now injection E as <- <-|]. destruct (nth_error _ _); [|discriminate E]. now injection E as <- <-.
Qed.
Lemma run_reads os : forall h vs h' vs', forallb (fun x => negb (writes (snd x))) os = true -> run h vs os = Ret (h', vs') -> h' = h.
Proof.
  induction os as [|[i o] os IH]; intros h vs h' vs' F E; cbn [Pb_Model.run] in E; [now injection E as <- <-|]. cbn [forallb snd] in F. apply andb_prop in F as [F1 F2].
  destruct (nth_error vs i) as [x|]; [|discriminate E]. destruct (call h x o) as [[h1 y]| | |] eqn:Ec; try discriminate E. cbn [obind] in E. apply call_reads in Ec; [|now apply negb_true_iff]. subst h1. eapply IH; eauto.
Qed.
Lemma find_from_spec l n : forall i, 0 <= i -> i + Z.of_nat (length l) <= 2 ^ 31 ->
  exists j, find_from N num_eqb i (numbers l) n = Some j /\
  ((j = -1 /\ Forall (fun m => num_eqb m n = false) l) \/
   (i <= j /\ exists m, nth_error l (Z.to_nat (j - i)) = Some m /\ num_eqb m n = true /\ forall k m', (k < Z.to_nat (j - i))%nat -> nth_error l k = Some m' -> num_eqb m' n = false)).
Proof.
  induction l as [|x l IH]; intros i Hi B; cbn [numbers map find_from].
  - exists (-1). split; [reflexivity|]. left. auto.
  - cbn [length] in B. destruct (num_eqb x n) eqn:E.
    + exists i. rewrite wraps_id by (unfold in_s; cbn; lia). split; [reflexivity|]. right. split; [lia|]. exists x. replace (i - i) with 0 by lia. repeat split; auto. intros k m' Hk. inversion Hk.
    + destruct (IH (i + 1) ltac:(lia) ltac:(lia)) as (j & Ej & H). exists j. split; [exact Ej|]. destruct H as [[-> F]|(L & m & H1 & H2 & H3)]; [left; auto|]. right. split; [lia|]. exists m.
      replace (Z.to_nat (j - i)) with (S (Z.to_nat (j - (i + 1)))) by lia. repeat split; auto. intros [|k] m' Hk Em; cbn [nth_error] in Em; [now injection Em as <-|]. apply (H3 k m'); [lia|exact Em].
Qed.
Lemma rep_find h a f l n : at_field h a f = Some (FRep _ _ (numbers l)) -> Z.of_nat (length l) <= 2 ^ 31 ->
  exists j, call h (VCont _ (Some (a, f))) (RepFind _ _ n) = Ret (h, VInt _ j) /\ call h (VCont _ (Some (a, f))) (RepContains _ _ n) = Ret (h, VBool _ (0 <=? j)) /\
  ((j = -1 /\ Forall (fun m => num_eqb m n = false) l) \/
   (0 <= j /\ exists m, nth_error l (Z.to_nat j) = Some m /\ num_eqb m n = true /\ forall k m', (k < Z.to_nat j)%nat -> nth_error l k = Some m' -> num_eqb m' n = false)).
Proof.
  unfold at_field. intros E B. destruct (find_from_spec l n 0 ltac:(lia) ltac:(lia)) as (j & Ej & H). exists j. cbn [Pb_Model.call container]. destruct (h a) as [m|]; [|discriminate E]. rewrite E. cbn [obind]. rewrite Ej. split; [reflexivity|].
  split; [|now rewrite Z.sub_0_r in H]. f_equal. f_equal. f_equal. destruct (Z.ltb_spec (-1) j), (Z.leb_spec 0 j); try reflexivity; lia.
Qed.
Lemma find_key (keys : forall a b, key_eqb a b = true <-> a = b) (l : list (K * elem)) k : NoDup (map fst l) ->
  match find (fun x => key_eqb (fst x) k) l with
  | Some x => forall e, In (k, e) l <-> e = snd x
  | None => forall e, ~ In (k, e) l
  end.
Proof.
  intros D. destruct (find _ l) as [[k1 e1]|] eqn:E.
  - apply find_some in E as [E1 E2]. cbn [fst snd] in *. apply keys in E2. subst k1. intros e. split; [|now intros ->]. intros H. induction l as [|[k2 e2] l IH]; [contradiction|]. inversion D as [|? ? D1 D2]; subst.
    destruct E1 as [E1|E1], H as [H|H]; [congruence| | |now apply IH]; exfalso; apply D1; [injection E1 as -> ->|injection H as -> ->]; cbn [fst].
    + apply in_map with (f := fst) in H. exact H.
    + apply in_map with (f := fst) in E1. exact E1.
  - intros e H. pose proof (find_none _ _ E _ H) as Q. cbn [fst] in Q. assert (key_eqb k k = true) by now apply keys. congruence.
Qed.
(** *** Writing *)
Lemma set_get h a f n h' y : call h (VMsg _ (Some a)) (SetNum _ _ f n) = Ret (h', y) ->
  forall b g, at_field h' b g = if Nat.eqb b a && text_eqb g f then Some (FNum _ _ n) else at_field h b g.
Proof.
  intros E b g. cbn [Pb_Model.call] in E. unfold at_field. destruct (h a) as [m|] eqn:Ha; [|discriminate E]. destruct (find_field m f) as [[]|] eqn:Hf; try discriminate E. injection E as <- <-. unfold store. destruct (Nat.eqb b a) eqn:Q; [|reflexivity].
  apply Nat.eqb_eq in Q. subst b. rewrite find_set by congruence. rewrite Ha. cbn [andb]. reflexivity.
Qed.
Lemma set_get_str h a f t h' y : call h (VMsg _ (Some a)) (SetStr _ _ f t) = Ret (h', y) ->
  forall b g, at_field h' b g = if Nat.eqb b a && text_eqb g f then Some (FStr _ _ t) else at_field h b g.
Proof.
  intros E b g. cbn [Pb_Model.call] in E. unfold at_field. destruct (h a) as [m|] eqn:Ha; [|discriminate E]. destruct (find_field m f) as [[]|] eqn:Hf; try discriminate E. injection E as <- <-. unfold store. destruct (Nat.eqb b a) eqn:Q; [|reflexivity].
  apply Nat.eqb_eq in Q. subst b. rewrite find_set by congruence. rewrite Ha. cbn [andb]. reflexivity.
Qed.
Lemma get_field h a f v : at_field h a f = Some v -> call h (VMsg _ (Some a)) (Get _ _ f) = Ret (h, getter N K a f v).
Proof. unfold at_field. intros E. cbn [Pb_Model.call]. destruct (h a) as [m|]; [|discriminate E]. now rewrite E. Qed.
Lemma set_num h a f n0 n : at_field h a f = Some (FNum _ _ n0) -> exists h', call h (VMsg _ (Some a)) (SetNum _ _ f n) = Ret (h', VVoid _).
Proof. unfold at_field. intros E. cbn [Pb_Model.call]. destruct (h a) as [m|]; [|discriminate E]. rewrite E. eauto. Qed.
Lemma shared h x y d sub f n0 n : at_field h x sub = Some (FSub _ _ d None) -> at_field h y sub = Some (FSub _ _ d None) -> at_field h d f = Some (FNum _ _ n0) ->
  exists h' vs, run h [VMsg _ (Some x); VMsg _ (Some y)] [(0, Get _ _ sub); (2, SetNum _ _ f n); (1, Get _ _ sub); (4, Get _ _ f)]%nat = Ret (h', vs ++ [VNum _ n]).
Proof.
  intros Hx Hy Hd. destruct (set_num h d f n0 n Hd) as (h' & Es). pose proof (set_get _ _ _ _ _ _ Es) as S. cbn [Pb_Model.run nth_error app]. rewrite (get_field _ _ _ _ Hx). cbn [obind getter Pb_Model.run nth_error app]. rewrite Es. cbn [obind Pb_Model.run nth_error app].
  assert (at_field h' y sub = Some (FSub _ _ d None)) as Hy'. { rewrite S. destruct (Nat.eqb y d && text_eqb sub f) eqn:Q; [|exact Hy]. apply andb_prop in Q as [Q1 Q2]. apply Nat.eqb_eq in Q1. apply text_eqb_eq in Q2. subst. congruence. }
  rewrite (get_field _ _ _ _ Hy'). cbn [obind getter Pb_Model.run nth_error app]. assert (at_field h' d f = Some (FNum _ _ n)) as Hd' by (rewrite S, Nat.eqb_refl, text_refl; reflexivity).
  rewrite (get_field _ _ _ _ Hd'). cbn [obind getter Pb_Model.run app]. exists h', [VMsg _ (Some x); VMsg _ (Some y); VMsg _ (Some d); VVoid _; VMsg _ (Some d)]. reflexivity.
Qed.
End Proofs.
