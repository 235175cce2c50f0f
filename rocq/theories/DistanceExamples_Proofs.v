(** Proofs for C73: sequential additions meet Highway's contracts; NaN; two widths agree. *)
From Coq Require Import List Bool Arith ZArith Reals Permutation Lia Lra.
Import ListNotations.
From Flocq Require Import Core BinarySingleNaN.
From Verif Require Import Base Distance_Model Distance_Spec Distance_Proofs DistanceLoop_Proofs.

Section Seq.
Variables prec emax : Z.
Context (prec_gt_0_ : Prec_gt_0 prec) (prec_lt_emax_ : Prec_lt_emax prec emax).
Notation F := (binary_float prec emax).
Notation add := (add prec emax prec_gt_0_ prec_lt_emax_).
Notation mul := (mul prec emax prec_gt_0_ prec_lt_emax_).
Notation fma := (fma prec emax prec_gt_0_ prec_lt_emax_).
Fixpoint seq_sum (l : list F) : F := match l with [] => zero prec emax | [x] => x | x :: l => add x (seq_sum l) end.
Fixpoint seq_dot (l r : list F) : F := match l, r with x :: l, y :: r => fma x y (seq_dot l r) | _, _ => zero prec emax end.
Lemma seq_sum_summed l : l <> [] -> summed prec emax _ _ (length l) l (seq_sum l).
Proof.
  induction l as [|x l IH]; intros H; [contradiction|]. destruct l as [|y l]; [constructor|].
  change (seq_sum (x :: y :: l)) with (add x (seq_sum (y :: l))). change (x :: y :: l) with ([x] ++ (y :: l)). rewrite app_length. cbn [length Nat.add].
  apply (s_add prec emax _ _ (S (length l)) [x] (y :: l)); [constructor|]. apply IH. discriminate.
Qed.
Lemma seq_reduces lanes : 0 < lanes -> reduces prec emax _ _ lanes seq_sum.
Proof. intros H l E. rewrite <- E. apply seq_sum_summed. destruct l; [cbn in E; lia|discriminate]. Qed.
Lemma seq_dots : dots prec emax _ _ 0 seq_dot.
Proof. intros l. induction l as [|x l IH]; intros [|y r] H; try discriminate; cbn; [constructor|]. constructor. apply IH. cbn in H. lia. Qed.
Lemma fma_adds : mul_adds prec emax _ _ fma.
Proof. intros x y z. left. reflexivity. Qed.
Lemma unfused_adds : mul_adds prec emax _ _ (fun x y z => add (mul x y) z).
Proof. intros x y z. right. reflexivity. Qed.

(** NaN *)
Lemma add_nan_l y : add B754_nan y = B754_nan. Proof. reflexivity. Qed.
Lemma add_nan_r x : add x B754_nan = B754_nan. Proof. destruct x; reflexivity. Qed.
Lemma summed_nan d l x : summed prec emax _ _ d l x -> In B754_nan l -> x = B754_nan.
Proof.
  induction 1 as [d x|d l l' x y _ IH1 _ IH2|d l l' x P _ IH]; intros HI.
  - destruct HI as [H|[]]. exact H.
  - apply in_app_iff in HI. destruct HI as [H|H]; [rewrite (IH1 H); apply add_nan_l|rewrite (IH2 H); apply add_nan_r].
  - apply IH. apply (Permutation_in _ (Permutation_sym P) HI).
Qed.
Lemma dotted_nan d l x : dotted prec emax _ _ d l x -> (exists p, In p l /\ (fst p = B754_nan \/ snd p = B754_nan)) -> x = B754_nan.
Proof.
  induction 1 as [d|d l x y z _ IH|d x y|d l l' x y _ IH1 _ IH2|d l l' x P _ IH]; intros (p & HI & HN).
  - destruct HI.
  - destruct HI as [ <- |HI]; cbn [fst snd] in *.
    + destruct HN as [ -> | -> ]; [reflexivity|]. destruct x; reflexivity.
    + rewrite (IH (ex_intro _ p (conj HI HN))). destruct x, y; reflexivity.
  - destruct HI as [ <- |[]]. cbn [fst snd] in *. destruct HN as [ -> | -> ]; [reflexivity|]. destruct x; reflexivity.
  - apply in_app_iff in HI. destruct HI as [H|H]; [rewrite (IH1 (ex_intro _ p (conj H HN))); apply add_nan_l|rewrite (IH2 (ex_intro _ p (conj H HN))); apply add_nan_r].
  - apply IH. exists p. split; [|exact HN]. apply (Permutation_in _ (Permutation_sym P) HI).
Qed.
Variable lanes : nat.
Hypothesis lanes_pos : 0 < lanes.
Variable mul_add : F -> F -> F -> F.
Hypothesis MA : mul_adds prec emax prec_gt_0_ prec_lt_emax_ mul_add.
Variable reduce_sum : list F -> F.
Hypothesis RS : reduces prec emax prec_gt_0_ prec_lt_emax_ lanes reduce_sum.
Lemma sum_nan v : readable prec emax v -> In B754_nan (elements prec emax v) -> vector_fsum prec emax _ _ lanes reduce_sum v = Ret B754_nan.
Proof.
  intros R H. destruct (fsum_run prec emax _ _ lanes lanes_pos reduce_sum RS v R) as (x & E & S). rewrite E. f_equal. apply (summed_nan _ _ _ S). right. exact H.
Qed.
Lemma in_combine_ex {A B} (l : list A) (r : list B) x : length l = length r -> In x l -> exists y, In (x, y) (combine l r).
Proof. revert r. induction l as [|a l IH]; intros [|b r] H HI; try discriminate; [destruct HI|]. destruct HI as [ -> |HI]; [exists b; left; reflexivity|]. destruct (IH r ltac:(cbn in H; lia) HI) as (y & Hy). exists y. right. exact Hy. Qed.
Lemma in_combine_ex' {A B} (l : list A) (r : list B) y : length l = length r -> In y r -> exists x, In (x, y) (combine l r).
Proof. revert r. induction l as [|a l IH]; intros [|b r] H HI; try discriminate; [destruct HI|]. destruct HI as [ -> |HI]; [exists a; left; reflexivity|]. destruct (IH r ltac:(cbn in H; lia) HI) as (x & Hx). exists x. right. exact Hx. Qed.
Lemma elements_len' v : readable prec emax v -> length (elements prec emax v) = size prec emax v.
Proof. intros H. unfold elements, readable in *. rewrite firstn_length. lia. Qed.
Lemma nan_pair l r : readable prec emax l -> readable prec emax r -> size prec emax l = size prec emax r ->
  In B754_nan (elements prec emax l) \/ In B754_nan (elements prec emax r) ->
  exists p, In p (combine (elements prec emax l) (elements prec emax r)) /\ (fst p = B754_nan \/ snd p = B754_nan).
Proof.
  intros Rl Rr E H. assert (EL : length (elements prec emax l) = length (elements prec emax r)) by (rewrite !elements_len' by assumption; exact E).
  destruct H as [H|H]; [destruct (in_combine_ex _ _ _ EL H) as (y & Hy)|destruct (in_combine_ex' _ _ _ EL H) as (y & Hy)]; eexists; (split; [exact Hy|]); cbn; auto.
Qed.
Lemma l2_nan l r : readable prec emax l -> readable prec emax r -> size prec emax l = size prec emax r ->
  In B754_nan (elements prec emax l) \/ In B754_nan (elements prec emax r) ->
  vector_l2_distance prec emax _ _ lanes mul_add reduce_sum l r = Ret B754_nan.
Proof.
  intros Rl Rr E H. unfold vector_l2_distance. rewrite E, Nat.eqb_refl. cbn [negb].
  destruct (l2_run prec emax _ _ lanes lanes_pos mul_add MA reduce_sum RS l r Rl Rr E) as (acc & pad & _ & EA & D). rewrite EA. cbn [obind].
  rewrite (dotted_nan _ _ _ D); [reflexivity|]. destruct (nan_pair l r Rl Rr E H) as (p & Hp & HN). exists (diff prec emax _ _ p). split.
  - apply in_map. apply in_or_app. left. exact Hp.
  - left. unfold diff. cbn [fst]. destruct p as [x y]. cbn [fst snd] in *. destruct HN as [ -> | -> ]; [reflexivity|]. destruct x; reflexivity.
Qed.
Lemma cosine_nan l r : readable prec emax l -> readable prec emax r -> size prec emax l = size prec emax r ->
  In B754_nan (elements prec emax l) \/ In B754_nan (elements prec emax r) ->
  vector_cosine_distance prec emax _ _ lanes mul_add reduce_sum l r = Ret B754_nan.
Proof.
  intros Rl Rr E H. unfold vector_cosine_distance. rewrite E, Nat.eqb_refl. cbn [negb].
  destruct (cos_run prec emax _ _ lanes lanes_pos mul_add MA reduce_sum RS l r Rl Rr E) as (a & b & c & pad & _ & EA & D & _ & _). rewrite EA. cbn [obind].
  rewrite (dotted_nan _ _ _ D).
  - destruct (_ || _)%bool; [reflexivity|]. f_equal. unfold div, sub. cbn [Bdiv]. assert (O : forall x : F, Bminus mode_NE x B754_nan = B754_nan) by (intros []; reflexivity). apply O.
  - destruct (nan_pair l r Rl Rr E H) as (p & Hp & HN). exists p. split; [|exact HN]. apply in_or_app. left. exact Hp.
Qed.
End Seq.

(** Single precision *)
Definition P24 : Prec_gt_0 24 := eq_refl.
Definition E128 : Prec_lt_emax 24 128 := eq_refl.
Definition f32 (n : Z) : binary_float 24 128 := binary_normalize 24 128 P24 E128 mode_NE n 0 false.
Definition vec32 (l : list Z) : fvec 24 128 := Fvec 24 128 (map f32 l) (length l).
Lemma f32_int n : (Z.abs n <= 2 ^ 24)%Z -> is_int 24 128 (f32 n) n.
Proof.
  intros H. pose proof (binary_normalize_correct 24 128 P24 E128 mode_NE n 0 false) as C. cbv zeta in C.
  replace (F2R {| Fnum := n; Fexp := 0 |}) with (IZR n) in C by (unfold F2R; cbn; lra).
  change (round radix2 (SpecFloat.fexp 24 128) (round_mode mode_NE) (IZR n)) with (rounded 24 128 (IZR n)) in C.
  rewrite (lt_bool 24 128 P24 E128), (round_int 24 128 P24 E128) in C by exact H. destruct C as (V & Fi & _). split; [exact Fi|exact V].
Qed.
Lemma vec32_ints l : Forall (fun n => Z.abs n <= 2 ^ 24)%Z l -> ints 24 128 (vec32 l) l.
Proof.
  intros H. unfold vec32, ints, readable, elements. cbn [size mem]. rewrite map_length. split; [lia|]. rewrite <- (map_length f32 l), firstn_all.
  induction H; cbn; constructor; [apply f32_int; assumption|assumption].
Qed.
Lemma vec32_example : ints 24 128 (vec32 [1; 2; 3; 4; 5]%Z) [1; 2; 3; 4; 5]%Z.
Proof. apply vec32_ints. repeat constructor; vm_compute; discriminate. Qed.
