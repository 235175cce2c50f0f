(** Proofs about the bump arena. *)
From Coq Require Import List ZArith Bool Lia Znumtheory.
Import ListNotations.
From Verif Require Import Base Bump_Model Bump_Spec.
Open Scope Z_scope.

Definition block_good (b : range) : Prop := 0 < fst b /\ (16 | fst b) /\ 0 < snd b /\ fst b + snd b < 2 ^ 64.

Definition held (a : bump) : Z := if alloc_ptr a =? 0 then 0 else kBlockSize.

Record inv (a : bump) (l : list (range * bool)) : Prop := {
  i_blocks : Forall block_good (blocks a);
  i_apart : ForallOrdPairs apart (blocks a);
  i_cur : (alloc_ptr a = 0 /\ alloc_bytes_remaining a = 0) \/
          (exists b, In (b, kBlockSize) (blocks a) /\ b <= alloc_ptr a /\ 0 <= alloc_bytes_remaining a /\
                     alloc_ptr a + alloc_bytes_remaining a = b + kBlockSize);
  i_in : Forall (fun g => 0 < snd (fst g) /\ exists b, In b (blocks a) /\ within (fst g) b) l;
  i_free : Forall (fun g => apart (fst g) (alloc_ptr a, alloc_bytes_remaining a)) l;
  i_dis : ForallOrdPairs apart (map fst l);
  i_al : Forall (fun g => snd g = true -> (8 | fst (fst g))) l;
  i_use : memory_usage a = (bytes_of (blocks a) + 8 * Z.of_nat (length (blocks a))) mod 2 ^ 64;
  i_cost : 2 * (bytes_of (blocks a) - held a) <=
           3 * (bytes_of (map fst l) + gaps l - (held a - alloc_bytes_remaining a))
}.

Lemma inv_new : inv bump_new [].
Proof.
  constructor; cbn; try constructor; auto. unfold held; cbn. lia.
Qed.

Lemma apart_sym r s : apart r s -> apart s r.
Proof. unfold apart. tauto. Qed.

Lemma within_apart r s b : within r b -> apart b s -> apart r s.
Proof. unfold within, apart. lia. Qed.

Lemma slop_spec p : 0 <= p ->
  let m := Z.land p 7 in let s := if m =? 0 then 0 else 8 - m in
  0 <= s <= 7 /\ (8 | p + s).
Proof.
  intros Hp. cbv zeta.
  assert (Z.land p 7 = p mod 8) as ->.
  { change 7 with (Z.ones 3). rewrite Z.land_ones by lia. reflexivity. }
  pose proof (Z.mod_pos_bound p 8 ltac:(lia)) as R. pose proof (Z.div_mod p 8 ltac:(lia)) as E.
  destruct (Z.eqb_spec (p mod 8) 0).
  - split; [lia|]. exists (p / 8). lia.
  - split; [lia|]. exists (p / 8 + 1). lia.
Qed.

Lemma wrap_in z : 0 <= z < 2 ^ 64 -> wrapu 64 z = z.
Proof. intros. apply wrapu_id. exact H. Qed.

(** Taking bytes of the current block. *)
Lemma take_inv a l skip n f : inv a l -> 0 < n -> 0 <= skip <= (if f : bool then 7 else 0) ->
  n + skip <= alloc_bytes_remaining a -> (f = true -> (8 | alloc_ptr a + skip)) ->
  exists a', take a skip (n + skip) = (a', Ret (alloc_ptr a + skip)) /\
             inv a' (((alloc_ptr a + skip, n), f) :: l).
Proof.
  intros [B A C I F D L U K] Hn Hs Hr Hal.
  destruct C as [[C1 C2]|(b & Cb & C1 & C2 & C3)]; [lia|].
  pose proof (proj1 (Forall_forall _ _) B _ Cb) as (G1 & G2 & G3 & G4). cbn in G1, G2, G3, G4.
  unfold take. rewrite !wrap_in by lia.
  eexists; split; [reflexivity|].
  assert (P : alloc_ptr a =? 0 = false) by (apply Z.eqb_neq; lia).
  assert (P' : alloc_ptr a + (n + skip) =? 0 = false) by (apply Z.eqb_neq; lia).
  assert (Hh : held a = kBlockSize) by (unfold held; now rewrite P).
  constructor; cbn [blocks alloc_ptr alloc_bytes_remaining memory_usage]; auto.
  - right. exists b. repeat split; auto; lia.
  - constructor; [|exact I]. cbn. split; [lia|]. exists (b, kBlockSize). split; [exact Cb|].
    unfold within; cbn. lia.
  - constructor; [unfold apart; cbn; lia|].
    eapply Forall_impl; [|exact F]. intros g. unfold apart; cbn. lia.
  - cbn. constructor; [|exact D]. apply Forall_map. eapply Forall_impl; [|exact F].
    intros g. unfold apart; cbn. lia.
  - unfold held; cbn [alloc_ptr]. rewrite P'. rewrite Hh in K.
    change (2 * (bytes_of (blocks a) - kBlockSize) <=
            3 * ((n + bytes_of (map fst l)) + ((if f then 7 else 0) + gaps l) -
                 (kBlockSize - (alloc_bytes_remaining a - (n + skip))))).
    destruct f; lia.
Qed.

(** The current block is left and a new one taken. *)
Lemma fallback_inv a l n mem f : inv a l -> 0 < n < 2 ^ 63 -> new_ok (blocks a) mem ->
  alloc_bytes_remaining a < n + (if f : bool then 7 else 0) ->
  match AllocateFallback a n mem with
  | (a', Ret p) => inv a' (((p, n), f) :: l) /\ (8 | p)
  | (a', Err) => a' = a
  | _ => False
  end.
Proof.
  intros V Hn M Hr. unfold AllocateFallback, AllocateNewBlock.
  destruct V as [B A C I F D L U K].
  assert (Hp : 0 <= alloc_ptr a /\ 0 <= alloc_bytes_remaining a /\
               (held a = 0 /\ alloc_bytes_remaining a = 0 \/ held a = kBlockSize)).
  { unfold held. destruct C as [[C1 C2]|(b & Cb & C1 & C2 & C3)].
    - rewrite C1, C2. cbn. lia.
    - pose proof (proj1 (Forall_forall _ _) B _ Cb) as (G1 & _). cbn in G1.
      destruct (Z.eqb_spec (alloc_ptr a) 0); lia. }
  destruct Hp as (Hp & Hr0 & Hh).
  assert (X : forall x m, new_ok (blocks a) mem -> mem m = Some x ->
            0 < m -> block_good (x, m) /\ Forall (apart (x, m)) (blocks a) /\
            Forall (fun g => apart (x, m) (fst g)) l /\ (8 | x) /\
            apart (x, m) (alloc_ptr a, alloc_bytes_remaining a)).
  { intros x m Mm E Hm. destruct (Mm _ _ E) as (Q1 & Q2 & Q3 & Q4).
    split; [unfold block_good; cbn; auto|]. split; [exact Q4|]. split; [|split].
    - eapply Forall_impl; [|exact I]. intros g (_ & b & Ib & Wb).
      apply apart_sym. eapply within_apart; [exact Wb|]. apply apart_sym.
      exact (proj1 (Forall_forall _ _) Q4 _ Ib).
    - destruct Q2 as [k ->]. exists (k * 2). lia.
    - destruct C as [[C1 C2]|(b & Cb & C1 & C2 & C3)].
      + rewrite C1, C2. unfold apart; cbn. lia.
      + pose proof (proj1 (Forall_forall _ _) Q4 _ Cb) as Q. unfold apart in *; cbn in *. lia. }
  assert (Us : forall m, wrapu 64 (memory_usage a + wrapu 64 (m + 8)) =
               (bytes_of ((0, m) :: blocks a) + 8 * Z.of_nat (S (length (blocks a)))) mod 2 ^ 64).
  { intros m. unfold wrapu. rewrite U. rewrite <- Zplus_mod. f_equal. cbn [bytes_of fold_right snd].
    fold (bytes_of (blocks a)). lia. }
  destruct (kBlockSize / 4 <? n) eqn:Q.
  - apply Z.ltb_lt in Q. destruct (mem n) as [x|] eqn:E; [|reflexivity].
    destruct (X x n M E ltac:(lia)) as (X1 & X2 & X3 & X4 & X5).
    split; [|exact X4].
    constructor; cbn [blocks alloc_ptr alloc_bytes_remaining memory_usage].
    + now constructor.
    + now constructor.
    + destruct C as [C|(b & Cb & C1)]; [now left|]. right. exists b. split; [now right|exact C1].
    + constructor.
      * cbn. split; [lia|]. exists (x, n). split; [now left|]. unfold within; cbn; lia.
      * eapply Forall_impl; [|exact I]. intros g (Z1 & b & Ib & Wb). split; [exact Z1|].
        exists b. split; [now right|exact Wb].
    + constructor; [exact X5|exact F].
    + cbn. constructor; [|exact D]. apply Forall_map. exact X3.
    + constructor; [intros _; exact X4|exact L].
    + rewrite Us. reflexivity.
    + unfold held in *; cbn [alloc_ptr] in *.
      change (bytes_of ((x, n) :: blocks a)) with (n + bytes_of (blocks a)).
      change (bytes_of (map fst (((x, n), f) :: l))) with (n + bytes_of (map fst l)).
      change (gaps (((x, n), f) :: l)) with ((if f then 7 else 0) + gaps l).
      destruct f; lia.
  - apply Z.ltb_ge in Q. change (kBlockSize / 4) with 1024 in Q.
    destruct (mem kBlockSize) as [x|] eqn:E; [|reflexivity].
    destruct (X x kBlockSize M E ltac:(unfold kBlockSize; lia)) as (X1 & X2 & X3 & X4 & X5).
    set (a1 := {| alloc_ptr := x; alloc_bytes_remaining := kBlockSize;
                  blocks := (x, kBlockSize) :: blocks a;
                  memory_usage := wrapu 64 (memory_usage a + wrapu 64 (kBlockSize + 8)) |}).
    assert (V : inv a1 l).
    { destruct X1 as (Y1 & Y2 & Y3 & Y4). cbn in Y1, Y2, Y3, Y4.
      subst a1. constructor; cbn [blocks alloc_ptr alloc_bytes_remaining memory_usage]; auto.
      - constructor; [|exact B]. unfold block_good; cbn; auto.
      - now constructor.
      - right. exists x. split; [now left|]. unfold kBlockSize; lia.
      - eapply Forall_impl; [|exact I]. intros g (Z1 & b & Ib & Wb). split; [exact Z1|].
        exists b. split; [now right|exact Wb].
      - eapply Forall_impl; [|exact X3]. intros g. apply apart_sym.
      - rewrite Us. reflexivity.
      - change (bytes_of ((x, kBlockSize) :: blocks a)) with (kBlockSize + bytes_of (blocks a)).
        unfold held at 1 2. cbn [alloc_ptr].
        destruct (Z.eqb_spec x 0); [lia|]. unfold kBlockSize in *. destruct f; lia. }
    destruct (take_inv a1 l 0 n f V ltac:(lia) ltac:(destruct f; lia)
                ltac:(subst a1; cbn [alloc_bytes_remaining]; unfold kBlockSize; lia)
                ltac:(intros _; rewrite Z.add_0_r; exact X4)) as (a2 & T & V2).
    rewrite !Z.add_0_r in T. rewrite Z.add_0_r in V2.
    change (match take a1 0 n with
            | (a', Ret p) => inv a' (((p, n), f) :: l) /\ (8 | p)
            | (a', Err) => a' = a
            | _ => False
            end).
    rewrite T. split; [exact V2|exact X4].
Qed.

Lemma step_inv a l o : inv a l -> request_ok a o ->
  match bump_step a o with
  | (a', Ret p) => inv a' (((p, asked o), match o with OAligned _ _ => true | _ => false end) :: l)
  | (a', Err) => a' = a
  | _ => False
  end.
Proof.
  intros V (R & M). destruct o as [n mem|n mem]; cbn [bump_step asked] in *.
  - unfold Allocate. destruct (Z.leb_spec n (alloc_bytes_remaining a)) as [H|H].
    + destruct (take_inv a l 0 n false V ltac:(cbn; lia) ltac:(cbn; lia) ltac:(cbn; lia) ltac:(discriminate)) as (a' & T & V').
      rewrite !Z.add_0_r in T. rewrite T. now rewrite Z.add_0_r in V'.
    + pose proof (fallback_inv a l n mem false V R M ltac:(cbn; lia)) as P.
      destruct (AllocateFallback a n mem) as [a' [p| | |]]; auto. apply P.
  - unfold AllocateAligned.
    assert (Hp : 0 <= alloc_ptr a /\ 0 <= alloc_bytes_remaining a).
    { destruct (i_cur _ _ V) as [[C1 C2]|(b & Cb & C1 & C2 & C3)]; [lia|].
      pose proof (proj1 (Forall_forall _ _) (i_blocks _ _ V) _ Cb) as (G1 & _). cbn in G1. lia. }
    destruct (slop_spec (alloc_ptr a) (proj1 Hp)) as (S1 & S2). cbv zeta in *.
    set (s := if Z.land (alloc_ptr a) 7 =? 0 then 0 else 8 - Z.land (alloc_ptr a) 7) in *.
    rewrite (wrap_in (n + s)) by lia.
    destruct (Z.leb_spec (n + s) (alloc_bytes_remaining a)) as [H|H].
    + destruct (take_inv a l s n true V ltac:(cbn; lia) ltac:(cbn; lia) H ltac:(intros _; exact S2)) as (a' & T & V').
      rewrite T. exact V'.
    + pose proof (fallback_inv a l n mem true V R M ltac:(cbn; lia)) as P.
      destruct (AllocateFallback a n mem) as [a' [p| | |]]; auto. apply P.
Qed.

Lemma given_inv a l : given a l -> inv a l.
Proof.
  induction 1 as [|a l o a' p G IH R E|a l o a' G IH R E].
  - exact inv_new.
  - pose proof (step_inv a l o IH R) as S. rewrite E in S. exact S.
  - pose proof (step_inv a l o IH R) as S. rewrite E in S. now subst a'.
Qed.

Lemma safe a l : given a l ->
  ForallOrdPairs apart (map fst l) /\
  Forall (fun g => (exists b, In b (blocks a) /\ within (fst g) b) /\
                   (snd g = true -> (8 | fst (fst g))) /\ 0 < fst (fst g)) l.
Proof.
  intros G. pose proof (given_inv _ _ G) as V. split; [apply (i_dis _ _ V)|].
  apply Forall_forall. intros g Ig.
  pose proof (proj1 (Forall_forall _ _) (i_in _ _ V) _ Ig) as (_ & b & Ib & Wb).
  split; [|split].
  - exists b. now split.
  - exact (proj1 (Forall_forall _ _) (i_al _ _ V) _ Ig).
  - pose proof (proj1 (Forall_forall _ _) (i_blocks _ _ V) _ Ib) as (G1 & _). unfold within in Wb. destruct g as [[p m] f], b as [bb bs]; cbn in *; lia.
Qed.

Lemma total a l o : given a l -> request_ok a o ->
  (exists a' p, bump_step a o = (a', Ret p)) \/ bump_step a o = (a, Err).
Proof.
  intros G R. pose proof (step_inv a l o (given_inv _ _ G) R) as S.
  destruct (bump_step a o) as [a' [p| | |]]; [left; eauto|right; now subst|contradiction|contradiction].
Qed.

Lemma usage a l : given a l ->
  memory_usage a = (bytes_of (blocks a) + 8 * Z.of_nat (length (blocks a))) mod 2 ^ 64.
Proof. intros G. apply (i_use _ _ (given_inv _ _ G)). Qed.

Lemma cost a l : given a l ->
  2 * bytes_of (blocks a) <= 3 * (bytes_of (map fst l) + gaps l) + 2 * 4096.
Proof.
  intros G. pose proof (given_inv _ _ G) as V. pose proof (i_cost _ _ V) as K.
  unfold held in K. destruct (i_cur _ _ V) as [[C1 C2]|(b & Cb & C1 & C2 & C3)].
  - rewrite C1, C2 in K. cbn in K. lia.
  - pose proof (proj1 (Forall_forall _ _) (i_blocks _ _ V) _ Cb) as (G1 & _). cbn in G1.
    destruct (Z.eqb_spec (alloc_ptr a) 0); [lia|].
    assert (b + kBlockSize - alloc_ptr a <= kBlockSize) by lia. unfold kBlockSize in *. lia.
Qed.

Lemma deleted_once a l : given a l -> NoDup (deleted a).
Proof.
  intros G. pose proof (given_inv _ _ G) as V. unfold deleted.
  pose proof (i_blocks _ _ V) as B. pose proof (i_apart _ _ V) as A.
  induction A as [|x r F A IH]; cbn; constructor.
  - intros Ix. apply in_map_iff in Ix. destruct Ix as (y & E & Iy).
    pose proof (proj1 (Forall_forall _ _) F _ Iy) as P.
    pose proof (Forall_inv B) as (_ & _ & P1 & _).
    pose proof (proj1 (Forall_forall _ _) (Forall_inv_tail B) _ Iy) as (_ & _ & P2 & _).
    unfold apart in P. lia.
  - apply IH. now apply Forall_inv_tail in B.
Qed.

(** A small history: 100 bytes, aligned ones, a large one, and requests that fill the block. *)
Definition from_ (b : Z) : Z -> option Z := fun n => if n <? 2 ^ 63 then Some b else None.

Lemma from_ok l b : 0 < b < 2 ^ 63 -> b mod 16 = 0 ->
  Forall (fun r => fst r + snd r <= b) l -> new_ok l (from_ b).
Proof.
  intros H D F n x E. unfold from_ in E. destruct (Z.ltb_spec n (2 ^ 63)); [|discriminate].
  inversion E; subst x. repeat split; auto; [lia| |lia|].
  - now apply Z.mod_divide.
  - eapply Forall_impl; [|exact F]. intros r. unfold apart; cbn. lia.
Qed.

Ltac given_step o k :=
  eapply (g_ret _ _ o);
  [k
  |split; [cbn; lia|apply from_ok; [lia|reflexivity|cbn; repeat constructor; cbn; lia]]
  |vm_compute; reflexivity].

Lemma example :
  given {| alloc_ptr := 13000; alloc_bytes_remaining := 3096;
           blocks := [(12000, 4096); (6144, 5000); (1600, 4096)]; memory_usage := 13216 |}
        [((12000, 1000), false); ((3712, 1000), true); ((2704, 1001), false); ((6144, 5000), true);
         ((1704, 1000), true); ((1600, 100), false)].
Proof.
  given_step (OAllocate 1000 (from_ 12000))
   ltac:(given_step (OAligned 1000 (from_ 12000))
   ltac:(given_step (OAllocate 1001 (from_ 12000))
   ltac:(given_step (OAligned 5000 (from_ 6144))
   ltac:(given_step (OAligned 1000 (from_ 6144))
   ltac:(given_step (OAllocate 100 (from_ 1600)) ltac:(constructor)))))).
Qed.

(** A request for more bytes than there are addresses wraps around. *)
Lemma huge : exists a l a' p, given a l /\
  bump_step a (OAligned (2 ^ 64 - 1) (fun _ => None)) = (a', Ret p) /\
  forall b, In b (blocks a') -> ~ within (p, 2 ^ 64 - 1) b.
Proof.
  do 4 eexists. split; [|split].
  - given_step (OAllocate 1 (from_ 1600)) ltac:(constructor).
  - vm_compute. reflexivity.
  - intros b [<-|[]]. unfold within; cbn. lia.
Qed.

(** Zero bytes, which the assert forbids: the null pointer. *)
Lemma zero : exists a', bump_step bump_new (OAllocate 0 (from_ 1600)) = (a', Ret 0).
Proof. eexists. reflexivity. Qed.
