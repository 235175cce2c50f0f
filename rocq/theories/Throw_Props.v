(** C89: closures and executors that throw. *)
From Coq Require Import List ZArith Permutation.
Import ListNotations.
From Verif Require Import Base ThreadPool_Model ThreadPool_Spec Throw_Model Throw_Spec Throw_Proofs.
Open Scope Z_scope.

(** Whatever throws: if Run returns normally, every index was processed exactly once, no closure threw, and no
    thread uses anything of the call any more. *)
Theorem C89_normal_return_means_all_done : forall E rs s, preach E rs s -> p_main s = Returned ->
  Permutation (p_done s) (all_indices rs) /\ (forall i, In i (all_indices rs) -> throws E i = false) /\
  forall a, pstep E s a = None.
Proof. exact returns_all. Qed.
Print Assumptions C89_normal_return_means_all_done.

(** If nothing throws, no schedule is infinite and Run returns. *)
Theorem C89_nothing_throws : forall E rs,
  (forall k, (k < length rs)%nat -> refuses E k = false) -> (forall i, In i (all_indices rs) -> throws E i = false) ->
  forall s, preach E rs s ->
    (exists bound, forall l s', psteps E s l s' -> ~ In ASpurious l -> (length l <= bound)%nat) /\
    (forall a, pstep E s a <> Some Terminate /\ pstep E s a <> Some Undefined) /\ (at_rest E s -> p_main s = Returned).
Proof. exact run_goes_on. Qed.
Print Assumptions C89_nothing_throws.

(** On the calling thread (one worker) the exception reaches the caller; the indices before it were processed, in
    order, and none after it.  Missing: more workers, see below. *)
Theorem C89_exceptions_reach_the_caller_partial : forall throws b e, 0 <= b <= e -> e < 2 ^ 64 ->
  (exists i, b <= i < e /\ throws i = true /\ (forall j, b <= j < i -> throws j = false) /\
     run_inline throws b e = (interval b i, true)) \/
  ((forall j, b <= j < e -> throws j = false) /\ run_inline throws b e = (interval b e, false)).
Proof. exact run_inline_spec. Qed.
Print Assumptions C89_exceptions_reach_the_caller_partial.

(** With more workers it never does: if a closure throws, Run neither returns nor throws, in any schedule; the
    threads come to rest after a bounded number of steps, and then either the process ends (the built-in
    threads) or Run waits for ever (an executor that catches). *)
Theorem C89_exceptions_reach_the_caller_refuted : forall E rs i,
  (forall k, (k < length rs)%nat -> refuses E k = false) -> In i (all_indices rs) -> throws E i = true ->
  forall s, preach E rs s ->
    p_main s <> Returned /\ p_main s <> Unwound /\
    (exists bound, forall l s', psteps E s l s' -> ~ In ASpurious l -> (length l <= bound)%nat) /\
    (at_rest E s -> if catches E then p_main s = Sleep /\ forall a, a <> ASpurious -> pstep E s a = None
                    else exists a, pstep E s a = Some Terminate).
Proof. exact closure_throws. Qed.
Print Assumptions C89_exceptions_reach_the_caller_refuted.

(** No thread uses the closure or the barrier after Run has left, provided the executor takes every sub-range. *)
Theorem C89_no_use_after_leaving_partial : forall E rs s a,
  (forall k, (k < length rs)%nat -> refuses E k = false) -> preach E rs s ->
  pstep E s a <> Some Undefined /\ p_main s <> Unwound.
Proof. exact no_undefined. Qed.
Print Assumptions C89_no_use_after_leaving_partial.

(** Not so if the executor throws for a later sub-range: Run leaves with the exception, and the sub-ranges taken
    before use the destroyed barrier and the closure. *)
Theorem C89_no_use_after_leaving_refuted : forall E rs k,
  (0 < k < length rs)%nat -> (forall j, (j < k)%nat -> refuses E j = false) -> refuses E k = true ->
  exists s a, preach E rs s /\ p_main s = Unwound /\ pstep E s a = Some Undefined.
Proof. exact executor_throws. Qed.
Print Assumptions C89_no_use_after_leaving_refuted.

(** If it throws for the first one, nothing was started. *)
Theorem C89_first_sub_range_not_taken : forall E rs s,
  refuses E 0 = true -> preach E rs s -> p_main s = Unwound ->
  p_tasks s = [] /\ p_done s = [] /\ forall a, pstep E s a = None.
Proof. exact first_refused. Qed.
Print Assumptions C89_first_sub_range_not_taken.

Example C89_ex_ranges : ex_ranges = [(0, 3); (3, 5); (5, 7)].
Proof. vm_compute. reflexivity. Qed.
(** Three workers, index 4 throws, the executor catches: Run sleeps for ever. *)
Example C89_ex_hang : exists s, play (ex_env true) (pstart ex_ranges) ex_schedule = Some s /\
  p_main s = Sleep /\ p_tasks s = [Done; Died; Done] /\ p_done s = [0; 5; 3; 1; 2; 6].
Proof. eexists. split; [vm_compute; reflexivity|]. vm_compute. auto. Qed.
Example C89_ex_inline : run_inline (fun i => i =? 4) 2 9 = ([2; 3], true).
Proof. vm_compute. reflexivity. Qed.
