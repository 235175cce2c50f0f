(** C04: the lock-free list hands every pushed element to exactly one sweep. *)
From Coq Require Import List Bool Arith.
Import ListNotations.
From Verif Require Import AtomicList_Model AtomicList_Spec AtomicList_Proofs.

(** Every interleaving of insertHead / sweepOnce / reverseSweep shows the events of an atomic
    queue: pushes append and report emptiness, a sweep takes the whole queue in one instant and
    calls back its elements in push order (reverse order for reverseSweep), nothing else. *)
Theorem C04_list_refines_atomic_queue :
  forall s tr, exec s tr -> exists c, q_exec c tr.
Proof. exact refinement. Qed.
Print Assumptions C04_list_refines_atomic_queue.

(** No element is handed out more often than it was pushed. *)
Theorem C04_list_no_duplicates :
  forall s tr t, exec s tr -> calls t tr <= pushes t tr.
Proof. exact at_most_once. Qed.
Print Assumptions C04_list_no_duplicates.

(** Once all operations are finished and the list is empty, exactly as often. *)
Theorem C04_list_each_push_swept_exactly_once :
  forall s tr t, exec s tr -> quiescent s -> calls t tr = pushes t tr.
Proof. exact exactly_once. Qed.
Print Assumptions C04_list_each_push_swept_exactly_once.

(** At any moment, an element pushed and not yet handed out is reachable: from the head, or from
    a pointer held by a sweep in progress. *)
Theorem C04_list_nothing_lost :
  forall s tr t, exec s tr -> calls t tr < pushes t tr ->
    (exists l, chain (next s) (head s) l /\ In t l) \/
    (exists i h l, pcs s i = Unlinking h /\ chain (next s) h l /\ In t l) \/
    (exists i h r l1 l2, pcs s i = Reversing h r /\ chain (next s) h l1 /\ chain (next s) r l2 /\ In t (l1 ++ l2)).
Proof. exact not_lost. Qed.
Print Assumptions C04_list_nothing_lost.

(** Two pushers race (the loser retries), then a third thread sweeps. *)
Example C04_example : exists s, quiescent s /\
  exec s [LPush 1 20 true; LPush 0 10 false; LTake 2 true; LCall 2 20; LCall 2 10; LEnd 2].
Proof. exact exec_example. Qed.
