(** C29 and C30: what a Context owns and allocates. *)
From Coq Require Import List Bool Arith ZArith Lia.
Import ListNotations.
From Verif Require Import Base Vector_Model Context_Model Context_Spec Context_Proofs.

(** In every history, the objects destroyed so far are the n oldest ones, each destroyed once and in the order of
    creation (objects are numbered as they are created), and the others are alive. *)
Theorem C29_destroyed_once_in_order : forall fuel l x r,
  execs fuel l new_ctx = Ret (x, r) ->
  exists n, n <= created x /\ destroyed x = seq 0 n /\ (forall p, In p (alive x) <-> n <= p < created x).
Proof. exact destroyed_in_order. Qed.
Print Assumptions C29_destroyed_once_in_order.

(** A Reset (the destructor is one) destroys all there are, those included that destructors create meanwhile. *)
Theorem C29_reset_destroys_all : forall fuel l x r,
  execs fuel (l ++ [C_reset]) new_ctx = Ret (x, r) ->
  destroyed x = seq 0 (created x) /\ alive x = [].
Proof. exact reset_destroys_all. Qed.
Print Assumptions C29_reset_destroys_all.

(** No other call destroys anything. *)
Theorem C29_only_reset_destroys : forall fuel l x x' r,
  ~ In C_reset l -> execs fuel l x = Ret (x', r) -> destroyed x' = destroyed x.
Proof. exact (fun fuel l x x' r N E => proj1 (only_reset_destroys fuel l x x' r N E)). Qed.
Print Assumptions C29_only_reset_destroys.

(** All calls return if no destructor uses arena memory and no type is fetched across a Reset; [fuel], the number
    of rounds a Reset makes, need not exceed the nesting of destructors that create objects. *)
Theorem C29_calls_return_partial : forall fuel l,
  (forall k c, In k l -> class_of k = Some c -> plain c /\ nesting c <= fuel) -> never_refetched l ->
  exists x r, execs fuel l new_ctx = Ret (x, r).
Proof.
  exact (fun fuel l F N => let (x, H) := execs_ok fuel l F N in let (r, H) := H in
    ex_intro _ x (ex_intro _ r (proj1 H))).
Qed.
Print Assumptions C29_calls_return_partial.

(** GetPtr hands out a live object, if no type is fetched both before and after a Reset.  Full statement: without
    that condition; [C29_fetch_after_reset_refuted]. *)
Theorem C29_fetched_alive_partial : forall fuel l c v x r a,
  execs fuel (l ++ [C_get c v]) new_ctx = Ret (x, r ++ [a]) ->
  never_refetched (l ++ [C_get c v]) ->
  exists p, a = Some p /\ In p (alive x).
Proof. exact get_alive. Qed.
Print Assumptions C29_fetched_alive_partial.

(** There is one object per type: fetching again gives the same one unless the validation rejects it. *)
Theorem C29_fetched_again : forall fuel l1 l2 c v1 v2 x r1 p r2 a,
  v2 <> Some false ->
  execs fuel (l1 ++ C_get c v1 :: l2 ++ [C_get c v2]) new_ctx = Ret (x, r1 ++ Some p :: r2 ++ [a]) ->
  length r1 = length l1 -> length r2 = length l2 ->
  (forall k, In k l2 -> ~ fetches (type_of c) k) -> a = Some p.
Proof. exact get_same. Qed.
Print Assumptions C29_fetched_again.

(** An object fetched before a Reset is what GetPtr hands out after it, although it is destroyed, whatever happens in
    between (short of a call that validates an object of the type, see the next theorem). *)
Theorem C29_fetch_after_reset_refuted : forall fuel l1 c v l2 l3 x r a,
  execs fuel (l1 ++ C_get c v :: l2 ++ C_reset :: l3 ++ [C_get c None]) new_ctx = Ret (x, r ++ [a]) ->
  (forall k, In k l3 -> trusts (type_of c) k) ->
  exists p, a = Some p /\ In p (destroyed x) /\ ~ In p (alive x).
Proof. exact dead_pointer. Qed.
Print Assumptions C29_fetch_after_reset_refuted.

(** A validation does not help: it looks at the destroyed object. *)
Theorem C29_validate_after_reset_refuted : forall fuel l1 c v l2 l3 x r b,
  execs fuel (l1 ++ C_get c v :: l2 ++ C_reset :: l3) new_ctx = Ret (x, r) ->
  (forall k, In k l3 -> trusts (type_of c) k) ->
  exec fuel (C_get c (Some b)) x = UB.
Proof. exact validate_dead. Qed.
Print Assumptions C29_validate_after_reset_refuted.

(** Reset recycles the arena before it destroys the objects: a destructor that uses memory its object took from the
    arena uses recycled memory, in every history. *)
Theorem C29_arena_recycled_first_refuted : forall fuel l x r t spawns,
  0 < fuel -> execs fuel (l ++ [C_reset]) new_ctx = Ret (x, r) ->
  execs fuel (l ++ [C_reset; C_new (Class t true spawns); C_reset]) new_ctx = UB.
Proof. exact arena_first. Qed.
Print Assumptions C29_arena_recycled_first_refuted.

(** A history with all kinds of calls: the destructor of object 0 creates object 3. *)
Definition history_ex : list call :=
  [C_new (Class 1 false [Class 2 false []]); C_get (Class 3 false []) None; C_get (Class 3 false []) (Some false);
   C_get (Class 3 false []) (Some true); C_reset; C_new (Class 2 false [])].
Example C29_history : exists x,
  execs 2 history_ex new_ctx = Ret (x, [Some 0; Some 1; Some 2; Some 2; None; Some 4]) /\
  destroyed x = [0; 1; 2; 3] /\ alive x = [4].
Proof. eexists. split; [vm_compute; reflexivity|]. split; reflexivity. Qed.
Example C29_history_fine :
  (forall k c, In k history_ex -> class_of k = Some c -> plain c /\ nesting c <= 2) /\ never_refetched history_ex.
Proof.
  split.
  - intros k c I E. unfold history_ex in I. cbn [In] in I.
    destruct I as [<-|[<-|[<-|[<-|[<-|[<-|[]]]]]]]; inversion E; subst c; cbn; repeat split; lia.
  - apply no_get_after_reset. intros l1 l2 E c v I.
    do 4 (destruct l1 as [|? l1]; [discriminate E|injection E as _ E]).
    destruct l1 as [|? l1]; [injection E as <-; destruct I as [I|[]]; discriminate I|injection E as _ E].
    destruct l1 as [|? l1]; [discriminate E|injection E as _ E]. now destruct l1.
Qed.
(** Fetch, Reset, fetch: the second fetch answers the destroyed object 0. *)
Example C29_dead : exists x, execs 1 [C_get (Class 1 false []) None; C_reset; C_get (Class 1 false []) None] new_ctx =
  Ret (x, [Some 0; None; Some 0]) /\ destroyed x = [0] /\ alive x = [].
Proof. eexists. split; [vm_compute; reflexivity|]. split; reflexivity. Qed.

(** ** Vectors *)
Local Open Scope Z_scope.

(** NewEmptyVector for n elements, n < 2^30, makes a writable vector of n elements.  The elements fit in the memory
    it points to exactly when they take at most 2^32 - 8 bytes. *)
Theorem C30_room_partial : forall e n cap, 1 <= sizeof_element e < 2 ^ 32 -> 0 <= n < 2 ^ 30 ->
  let (bytes, v) := NewEmptyVector e n cap in
  Size v = n /\ writable_ v = true /\ data_ v = 0 /\
  (SizeByBytes (is_bit e) (sizeof_element e) v <= bytes <-> bytes_needed e n <= 2 ^ 32 - 8).
Proof. exact empty_vector_room. Qed.
Print Assumptions C30_room_partial.

(** 2^29 doubles, a number of elements that a vector can hold, are given no memory at all. *)
Theorem C30_room_refuted : exists e n, 0 <= n < 2 ^ 30 /\ sizeof_element e = 8 /\
  fst (NewEmptyVector e n 0) = 0 /\ Size (snd (NewEmptyVector e n 0)) = n /\ 0 < n.
Proof. exists (E_bytes 8), (2 ^ 29). repeat split; reflexivity || discriminate. Qed.
Print Assumptions C30_room_refuted.

(** The capacity is at least n as long as the larger of n and the capacity asked for take less than 2^30 bytes. *)
Theorem C30_capacity_partial : forall e n cap, 1 <= sizeof_element e < 2 ^ 32 -> 0 <= n -> 0 <= cap ->
  Z.max n cap * sizeof_element e < 2 ^ 30 ->
  capacity_ (snd (NewEmptyVector e n cap)) = Z.max n cap * sizeof_element e /\
  n <= capacity_ (snd (NewEmptyVector e n cap)).
Proof. exact empty_vector_capacity. Qed.
Print Assumptions C30_capacity_partial.

(** Beyond that it wraps around; it is 0 for 2^27 doubles, whose bytes do fit. *)
Theorem C30_capacity_wraps_refuted : forall e n cap, 1 <= sizeof_element e < 2 ^ 32 -> 0 <= n < 2 ^ 30 ->
  0 <= cap <= n -> 2 ^ 30 <= n * sizeof_element e ->
  capacity_ (snd (NewEmptyVector e n cap)) = (n * sizeof_element e) mod 2 ^ 30.
Proof. exact empty_vector_capacity_wraps. Qed.
Print Assumptions C30_capacity_wraps_refuted.
Example C30_no_capacity : capacity_ (snd (NewEmptyVector (E_bytes 8) (2 ^ 27) 0)) = 0.
Proof. reflexivity. Qed.

(** A capacity asked for is not allocated: the memory has room for n elements only. *)
Theorem C30_capacity_not_allocated_refuted : forall s n cap, 1 <= s -> 0 <= n -> n * s + 8 <= cap * s -> cap * s < 2 ^ 30 ->
  fst (NewEmptyVector (E_bytes s) n cap) < capacity_ (snd (NewEmptyVector (E_bytes s) n cap)).
Proof. exact capacity_not_allocated. Qed.
Print Assumptions C30_capacity_not_allocated_refuted.

(** From 2^30 elements on, the vector has another size than asked for. *)
Theorem C30_size_wraps_refuted : forall e n cap, 2 ^ 30 <= n -> Size (snd (NewEmptyVector e n cap)) < n.
Proof. exact empty_vector_size_wraps. Qed.
Print Assumptions C30_size_wraps_refuted.

(** NewVector, where it copies the elements of a std::vector of less than 2^30 elements: they fit. *)
Theorem C30_copied_room : forall e n, 1 <= sizeof_element e < 2 ^ 32 -> 0 <= n < 2 ^ 30 ->
  let (bytes, v) := NewVector e n in
  Size v = n /\ data_ v = 0 /\ SizeByBytes (is_bit e) (sizeof_element e) v <= bytes.
Proof. exact new_vector_room. Qed.
Print Assumptions C30_copied_room.

(** NewVector of a std::vector<bool>: whatever the memory held before, the vector has these elements. *)
Theorem C30_bools : forall data garbage, Z.of_nat (length data) < 2 ^ 30 ->
  (forall k, 0 <= k -> Z.of_nat (length (garbage k)) = k) ->
  exists mem v, NewVectorBool data garbage = Ret (mem, v) /\ Size v = Z.of_nat (length data) /\
    Z.of_nat (length mem) = (Z.of_nat (length data) + 7) / 8 /\
    forall i b, nth_error data i = Some b -> bit_get mem v (Z.of_nat i) = Ret b.
Proof. exact bool_vector. Qed.
Print Assumptions C30_bools.
Example C30_bools_ex : exists v,
  NewVectorBool [true; false; true; true; false; false; false; false; true] (fun k => repeat 255 (Z.to_nat k)) =
  Ret ([13; 255], v).
Proof. eexists. vm_compute. reflexivity. Qed.
Example C30_room_ex : NewEmptyVector (E_bytes 8) 5 0 = (40, mk_vec 0 5 40 true) /\
  NewEmptyVector E_bit 5 0 = (8, mk_vec 0 5 5 true).
Proof. split; reflexivity. Qed.
