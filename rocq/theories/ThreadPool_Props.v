(** C05, C06: the parallel for. *)
From Coq Require Import List ZArith Permutation.
Import ListNotations.
From Verif Require Import Base ThreadPool_Model ThreadPool_Spec ThreadPool_Proofs.
Open Scope Z_scope.

(** The ranges, one after the other, are exactly begin, begin+1, ..., end-1. *)
Theorem C05_plan_covers_every_index_once :
  forall b e nw, 0 <= b <= e -> e < 2 ^ 64 -> 0 <= nw ->
    plan_indices (plan b e nw) = interval b e.
Proof. exact plan_covers. Qed.
Print Assumptions C05_plan_covers_every_index_once.

(** One range per worker while there are indices for it; none is empty; sizes differ by at most one. *)
Theorem C05_plan_is_balanced :
  forall b e nw, 0 <= b <= e -> e < 2 ^ 64 -> 1 < nw ->
    let rs := ranges_of (plan b e nw) in
    Z.of_nat (length rs) = Z.min nw (e - b) /\
    Forall (fun r => fst r < snd r /\ (e - b) / nw <= snd r - fst r <= (e - b) / nw + 1) rs.
Proof. exact plan_shape. Qed.
Print Assumptions C05_plan_is_balanced.

(** Run on a pool of [threads] threads (0: the default 8) asked for [requested] workers (0: all):
    it covers the indices, never uses more workers than the pool has or than asked for, and by default
    uses all it can. *)
Theorem C05_run_uses_the_pool :
  forall threads requested b e, 0 <= b <= e -> e < 2 ^ 64 -> 0 <= threads -> 0 <= requested ->
  plan_indices (run_plan threads requested b e) = interval b e /\
  Z.of_nat (length (ranges_of (run_plan threads requested b e))) <= (if threads =? 0 then 8 else threads) /\
  (requested <> 0 -> Z.of_nat (length (ranges_of (run_plan threads requested b e))) <= requested) /\
  (requested = 0 -> threads <> 1 ->
   Z.of_nat (length (ranges_of (run_plan threads requested b e))) = Z.min (if threads =? 0 then 8 else threads) (e - b)).
Proof. exact run_plan_spec. Qed.
Print Assumptions C05_run_uses_the_pool.

Example C05_example : plan 10 21 4 = PlanPosted [(10, 13); (13, 16); (16, 19); (19, 21)].
Proof. vm_compute. reflexivity. Qed.

(** When Run has returned, every index of every range has been processed exactly once, and no
    worker has anything left to do (in particular none can still use the destroyed barrier). *)
Theorem C06_run_returns_after_all_work :
  forall rs s, reach rs s -> main s = MReturned ->
    Permutation (done s) (concat (map (fun r => interval (fst r) (snd r)) rs)) /\
    forall a, step s a = None.
Proof. exact returns_after_all. Qed.
Print Assumptions C06_run_returns_after_all_work.

(** Plan and Run together: each index of [b, e) has been processed exactly once. *)
Theorem C06_run_processes_the_interval :
  forall b e nw s, 0 <= b <= e -> e < 2 ^ 64 -> 1 < nw ->
    reach (ranges_of (plan b e nw)) s -> main s = MReturned -> Permutation (done s) (interval b e).
Proof. exact run_covers. Qed.
Print Assumptions C06_run_processes_the_interval.

(** In no reachable state does a worker use the barrier after Run returned. *)
Theorem C06_run_no_use_after_return :
  forall rs s a, reach rs s -> step s a <> Some UB.
Proof. exact no_ub. Qed.
Print Assumptions C06_run_no_use_after_return.

(** Run returns: as long as it has not, some thread can take a step, and schedules (without
    spurious wake-ups) have bounded length, so no wake-up is lost and there is no deadlock. *)
Theorem C06_run_terminates :
  forall rs s, reach rs s -> exists bound, forall l s', schedule s l s' -> ~ In ASpurious l ->
    (length l <= bound)%nat /\
    ((forall a s'', a <> ASpurious -> step s' a <> Some (Ret s'')) -> main s' = MReturned).
Proof. exact run_terminates. Qed.
Print Assumptions C06_run_terminates.

Example C06_example : exists s, reach [(0, 2); (2, 3)] s /\ main s = MReturned /\ done s = [2; 0; 1].
Proof. exact run_example. Qed.
