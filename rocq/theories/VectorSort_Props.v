(** C66: sorting functions of vectors. Wherever [contract leb lib] is assumed, C66_contract shows a library that meets it. *)
From Coq Require Import List Bool Arith ZArith Permutation.
Import ListNotations.
From Verif Require Import Base VectorSort_Model VectorSort_Spec VectorSort_Proofs.

(** The contract can be met. *)
Theorem C66_contract : forall V : Type, exists lib : library Z V, contract Z.leb lib.
Proof. intros V. exact (ex_intro _ reference reference_ok). Qed.
Print Assumptions C66_contract.

(** sort: the same elements, in order. *)
Theorem C66_sort : forall (T V : Type) (leb : T -> T -> bool) (lib : library T V), contract leb lib -> forall x descending, writable x = true ->
  exists r, vector_sort lib x descending = Ret r /\ Permutation (items x) r /\ sorted leb (fun x => x) descending r.
Proof. exact @sort_ok. Qed.
Print Assumptions C66_sort.

(** topk: the same elements; the first k are the k first of the order, and sorted. *)
Theorem C66_topk_partial : forall (T V : Type) (leb : T -> T -> bool) (lib : library T V), contract leb lib -> forall x k descending, writable x = true -> k <= length (items x) ->
  exists r, vector_topk lib x k descending = Ret r /\ Permutation (items x) r /\ topped leb (fun x => x) descending k r.
Proof. exact @topk_ok. Qed.
Print Assumptions C66_topk_partial.

(** select: the same elements; number k is the one sorting would put there, with the others on their sides. *)
Theorem C66_select_partial : forall (T V : Type) (leb : T -> T -> bool) (lib : library T V), contract leb lib -> forall x k descending, writable x = true -> k < length (items x) ->
  exists r, vector_select lib x k descending = Ret r /\ Permutation (items x) r /\ in_place leb (fun x => x) descending k r.
Proof. exact @select_ok. Qed.
Print Assumptions C66_select_partial.

(** argsort: every position once, in the order of the elements there; also for read-only vectors. *)
Theorem C66_argsort : forall (T V : Type) (leb : T -> T -> bool) (lib : library T V), contract leb lib -> forall x descending,
  exists r ts, vector_argsort lib x descending = Ret r /\ Permutation (seq 0 (length (items x))) r /\
    at_positions (items x) r ts /\ sorted leb (fun x => x) descending ts.
Proof. exact @argsort_ok. Qed.
Print Assumptions C66_argsort.

(** argselect: every position once; the first k belong to the k first elements of the order. *)
Theorem C66_argselect_partial : forall (T V : Type) (leb : T -> T -> bool) (lib : library T V), contract leb lib -> forall x k descending,
  (descending = false -> k < length (items x)) -> (descending = true -> 0 < k \/ items x = []) ->
  exists r ts, vector_argselect lib x k descending = Ret r /\ Permutation (seq 0 (length (items x))) r /\
    at_positions (items x) r ts /\ selected leb (fun x => x) descending k ts.
Proof. exact @argselect_ok. Qed.
Print Assumptions C66_argselect_partial.

(** sort_kv, topk_kv, select_kv: like the above for the keys, and every value stays with its key. *)
Theorem C66_sort_kv : forall (T V : Type) (leb : T -> T -> bool) (lib : library T V), contract leb lib -> forall keys values descending,
  writable keys = true -> writable values = true -> length (items keys) = length (items values) ->
  exists ks vs, vector_sort_key_value lib keys values descending = Ret (ks, vs) /\ length ks = length vs /\
    Permutation (combine (items keys) (items values)) (combine ks vs) /\ sorted leb (fun x => x) descending ks.
Proof. exact @sort_kv_ok. Qed.
Print Assumptions C66_sort_kv.
Theorem C66_topk_kv_partial : forall (T V : Type) (leb : T -> T -> bool) (lib : library T V), contract leb lib -> forall keys values k descending,
  writable keys = true -> writable values = true -> length (items keys) = length (items values) -> k <= length (items keys) ->
  exists ks vs, vector_topk_key_value lib keys values k descending = Ret (ks, vs) /\ length ks = length vs /\
    Permutation (combine (items keys) (items values)) (combine ks vs) /\ topped leb (fun x => x) descending k ks.
Proof. exact @topk_kv_ok. Qed.
Print Assumptions C66_topk_kv_partial.
Theorem C66_select_kv_partial : forall (T V : Type) (leb : T -> T -> bool) (lib : library T V), contract leb lib -> forall keys values k descending,
  writable keys = true -> writable values = true -> length (items keys) = length (items values) -> k < length (items keys) ->
  exists ks vs, vector_select_key_value lib keys values k descending = Ret (ks, vs) /\ length ks = length vs /\
    Permutation (combine (items keys) (items values)) (combine ks vs) /\ in_place leb (fun x => x) descending k ks.
Proof. exact @select_kv_ok. Qed.
Print Assumptions C66_select_kv_partial.

(** A read-only vector is refused, whatever the library does. *)
Theorem C66_readonly : forall (T V : Type) (lib : library T V) x k descending, writable x = false ->
  vector_sort lib x descending = Err /\ vector_select lib x k descending = Err /\ vector_topk lib x k descending = Err.
Proof. exact @read_only. Qed.
Print Assumptions C66_readonly.
(** So are read-only keys or values, and keys and values of different numbers. *)
Theorem C66_refused_pairs : forall (T V : Type) (lib : library T V) keys values k descending,
  writable keys = false \/ writable values = false \/ length (items keys) <> length (items values) ->
  vector_sort_key_value lib keys values descending = Err /\ vector_topk_key_value lib keys values k descending = Err /\
  vector_select_key_value lib keys values k descending = Err.
Proof. exact @refused_pairs. Qed.
Print Assumptions C66_refused_pairs.

(** Nothing checks k: a library within its contract may run past the end of the vector. *)
Theorem C66_k_unchecked_refuted : exists lib : library Z Z, contract Z.leb lib /\ forall (x ys : nvec Z) k descending, writable x = true -> length (items x) < k ->
  vector_topk lib x k descending = UB /\ vector_select lib x k descending = UB /\ vector_argselect lib x k false = UB.
Proof. exact (ex_intro _ reference (conj reference_ok reference_past)). Qed.
Print Assumptions C66_k_unchecked_refuted.
(** argselect of the 0 largest asks the library for position n of n. *)
Theorem C66_argselect_zero_refuted : exists lib : library Z Z, contract Z.leb lib /\ forall x : nvec Z, items x <> [] -> vector_argselect lib x 0 true = UB.
Proof. exact (ex_intro _ reference (conj reference_ok reference_none)). Qed.
Print Assumptions C66_argselect_zero_refuted.

(** Runs with the reference library *)
Definition C66_data : nvec Z := Nvec true [5; 3; 9; 1; 7]%Z.
Example C66_example_sort : vector_sort (V := Z) reference C66_data true = Ret [9; 7; 5; 3; 1]%Z.
Proof. reflexivity. Qed.
Example C66_example_argselect : vector_argselect (V := Z) reference C66_data 2 true = Ret [4; 2; 3; 1; 0].
Proof. reflexivity. Qed.
Example C66_example_kv : vector_topk_key_value reference C66_data (Nvec true [50; 30; 90; 10; 70]%Z) 2 false = Ret ([1; 3; 5; 7; 9], [10; 30; 50; 70; 90])%Z.
Proof. reflexivity. Qed.
Example C66_example_refused : vector_sort_key_value reference C66_data (Nvec true [50; 30]%Z) false = Err.
Proof. reflexivity. Qed.
