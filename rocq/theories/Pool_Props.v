(** C86: objects of the node pool are destroyed once, the latest first, before their memory is
    used again. *)
From Coq Require Import List ZArith.
Import ListNotations.
From Verif Require Import Base Arena_Model Arena_Spec Pool_Model Pool_Spec Pool_Proofs.
Open Scope Z_scope.

(** Whatever is asked of a pool, its life is a sequence of rounds: objects are made, at places
    of their own; then the destructors of those that have one run, the latest object first; then
    the memory is used again.  Deleting the pool ends the round that is left. *)
Theorem C86_life_of_a_pool :
  forall p tr, pool_history p tr ->
  exists ended current,
    tr = life ended current /\
    map o_id (concat ended ++ current) = seq 0 (length (concat ended ++ current)) /\
    Forall (fun l => pairwise_disjoint (map extent l)) (ended ++ [current]) /\
    Forall (fun o => (16 | o_at o) /\ exists b, In b (owned (mem_ p)) /\ inside (extent o) b) current /\
    Delete p = Ret (closing current).
Proof. exact lives. Qed.
Print Assumptions C86_life_of_a_pool.

(** Once the pool is deleted each object with a destructor has been destroyed exactly once, the
    others never. *)
Theorem C86_objects_are_destroyed_once :
  forall p tr es, pool_history p tr -> Delete p = Ret es ->
  forall k d, has_been_made k d tr -> times_gone k (tr ++ es) = if d then 1%nat else 0%nat.
Proof. exact destroyed_once. Qed.
Print Assumptions C86_objects_are_destroyed_once.

(** Every operation returns or throws bad_alloc: no destructor runs where there is no object. *)
Theorem C86_no_undefined_behaviour :
  forall p tr o, pool_history p tr -> pool_op_ok p o ->
    (exists p' es, pool_step p o = (p', Ret es)) \/ exists p', pool_step p o = (p', Err).
Proof. exact steps. Qed.
Print Assumptions C86_no_undefined_behaviour.

(** The elements of a vector in the arena are destroyed exactly once, also those that were moved
    when it grew.  Missing from the full claim: vectors outside the arena, see below. *)
Theorem C86_elements_of_arena_vectors_partial :
  forall l k, let (v, tr) := vrun (avec_new true) l in
    (vcount (constructs k) (tr ++ avec_delete v) <= 1)%nat /\
    vcount (destroys k) (tr ++ avec_delete v) = vcount (constructs k) (tr ++ avec_delete v).
Proof. exact (vector_elements true). Qed.
Print Assumptions C86_elements_of_arena_vectors_partial.

(** A vector made without an arena returns all the memory it takes. *)
Theorem C86_memory_of_vectors :
  forall b l n, let (v, tr) := vrun (avec_new b) l in
    vcount (returns n) (tr ++ avec_delete v) = vcount (takes n) (tr ++ avec_delete v).
Proof. exact vector_memory. Qed.
Print Assumptions C86_memory_of_vectors.

(** But it never destroys an element: the adaptor's destroy does nothing without an arena. *)
Theorem C86_elements_of_other_vectors_refuted :
  forall l k, let (v, tr) := vrun (avec_new false) l in
    vcount (destroys k) (tr ++ avec_delete v) = 0%nat.
Proof.
  intros l k. generalize (vector_elements false l k). destruct (vrun (avec_new false) l) as [v tr].
  intros H. exact (proj2 H).
Qed.
Print Assumptions C86_elements_of_other_vectors_refuted.

(** Two rounds: the memory of the first is used again. *)
Example C86_ex : exists p,
  pool_history p
    [Made 0 4112 40 true; Made 1 4160 8 false; Made 2 4240 24 true; Gone 2; Gone 0; Recycled;
     Made 3 4112 16 true] /\
  Delete p = Ret [Gone 3; Recycled].
Proof. exact example. Qed.

(** A vector that grows three times. *)
Example C86_ex_vector :
  let (v, tr) := vrun (avec_new true) [VAdd; VAdd; VAdd] in
  elems v = [4; 5; 3]%nat /\ tr ++ avec_delete v =
  [Constructed 0; Constructed 1; Constructed 2; Destroyed 0; Constructed 3; Constructed 4;
   Constructed 5; Destroyed 2; Destroyed 1; Destroyed 4; Destroyed 5; Destroyed 3].
Proof. split; reflexivity. Qed.
