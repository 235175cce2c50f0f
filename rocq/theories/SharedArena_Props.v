(** C76: an arena shared by threads. *)
From Coq Require Import List ZArith.
Import ListNotations.
From Verif Require Import Base Arena_Model Arena_Spec SharedArena_Model SharedArena_Spec SharedArena_Proofs.
Open Scope Z_scope.

(** For every interleaving of any number of threads and shared arenas in which the users keep to [allowed] and no
    object is created where a value of a destroyed one is left: the pieces in use of all threads overlap nowhere,
    each is aligned and inside a block of an Arena that is alive, and no step is undefined. *)
Theorem C76_shared_partial w l :
  run new_places (fun _ => True) w l ->
  pairwise_disjoint (map bytes l) /\
  (forall th a r, In (th, a, r) l -> (16 | fst r) /\ exists id x o,
    objects w a <> None /\ slots w th a = Some id /\ arenas w id = Some x /\ In o (owned x) /\ inside r o) /\
  (forall c w' r, allowed w c -> new_places w c -> step w c = (w', r) -> r = Err \/ exists v, r = Ret v).
Proof. exact (shared_ok w l). Qed.
Print Assumptions C76_shared_partial.

(** If no request has failed, MemoryUsage is the sum of the sizes in use of all threads, rounded up to 16 bytes. *)
Theorem C76_usage_partial w l a ids :
  run new_places returns w l -> objects w a = Some ids -> ~ busy w a ->
  exists n, snd (step w (Usage a)) = Ret n /\ n = total_rounded 16 (map bytes (filter (fun p => from p =? a) l)).
Proof. exact (usage_sum w l a ids). Qed.
Print Assumptions C76_usage_partial.

(** Without [new_places]: one thread destroys a shared arena another thread has used, and creates one at the same
    address. The other thread's next Allocate uses the deleted Arena. *)
Theorem C76_stale_refuted (a : Z) (th1 th2 : nat) :
  th1 <> th2 -> exists w l mem,
  run (fun _ _ => True) returns w l /\ allowed w (Finish th2 mem) /\ snd (step w (Finish th2 mem)) = UB.
Proof. exact (stale a th1 th2). Qed.
Print Assumptions C76_stale_refuted.

Example C76_two_threads : exists w, run new_places returns w [(1%nat, 4096, (262160, 50)); (2%nat, 4096, (65552, 100))].
Proof. exact two_threads. Qed.
