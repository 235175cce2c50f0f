(** C85: the bump arena of leveldb_arena gives out ranges of its own and accounts for them. *)
From Coq Require Import List ZArith.
Import ListNotations.
From Verif Require Import Base Bump_Model Bump_Spec Bump_Proofs.
Open Scope Z_scope.

(** The ranges given out never overlap; each lies in a block obtained from the system, and
    starts on a multiple of eight when that was asked for. *)
Theorem C85_ranges_are_apart_inside_and_aligned :
  forall a l, given a l ->
    ForallOrdPairs apart (map fst l) /\
    Forall (fun g => (exists b, In b (blocks a) /\ within (fst g) b) /\
                     (snd g = true -> (8 | fst (fst g))) /\ 0 < fst (fst g)) l.
Proof. exact safe. Qed.
Print Assumptions C85_ranges_are_apart_inside_and_aligned.

(** A request returns a range or throws, and then the arena is as it was. *)
Theorem C85_requests_are_met_or_change_nothing :
  forall a l o, given a l -> request_ok a o ->
    (exists a' p, bump_step a o = (a', Ret p)) \/ bump_step a o = (a, Err).
Proof. exact total. Qed.
Print Assumptions C85_requests_are_met_or_change_nothing.

(** The reported usage is the size of the blocks and eight bytes for each. *)
Theorem C85_usage_is_exact :
  forall a l, given a l ->
    memory_usage a = (bytes_of (blocks a) + 8 * Z.of_nat (length (blocks a))) mod 2 ^ 64.
Proof. exact usage. Qed.
Print Assumptions C85_usage_is_exact.

(** Little is wasted: the blocks hold at most half as much again as was asked for, and one
    block; aligned requests count seven bytes more. *)
Theorem C85_little_is_wasted :
  forall a l, given a l ->
    2 * bytes_of (blocks a) <= 3 * (bytes_of (map fst l) + gaps l) + 2 * 4096.
Proof. exact cost. Qed.
Print Assumptions C85_little_is_wasted.

(** The destructor deletes every block, none twice. *)
Theorem C85_blocks_are_deleted_once :
  forall a l, given a l -> NoDup (deleted a) /\ forall b n, In (b, n) (blocks a) -> In b (deleted a).
Proof.
  intros a l G. split; [exact (deleted_once a l G)|]. intros b n I. exact (in_map fst _ _ I).
Qed.
Print Assumptions C85_blocks_are_deleted_once.

(** A request for an aligned range of nearly as many bytes as there are addresses does not
    throw: its size wraps around and a pointer to a few bytes is returned. *)
Theorem C85_huge_aligned_requests_refuted :
  exists a l a' p, given a l /\
    bump_step a (OAligned (2 ^ 64 - 1) (fun _ => None)) = (a', Ret p) /\
    forall b, In b (blocks a') -> ~ within (p, 2 ^ 64 - 1) b.
Proof. exact huge. Qed.
Print Assumptions C85_huge_aligned_requests_refuted.

(** A history with aligned requests, one with a block of its own and one that starts a new
    block. *)
Example C85_ex :
  given {| alloc_ptr := 13000; alloc_bytes_remaining := 3096;
           blocks := [(12000, 4096); (6144, 5000); (1600, 4096)]; memory_usage := 13216 |}
        [((12000, 1000), false); ((3712, 1000), true); ((2704, 1001), false); ((6144, 5000), true);
         ((1704, 1000), true); ((1600, 100), false)].
Proof. exact example. Qed.
