(** C01: the LRU cache is bounded and evicts the least recently used key. *)
From Coq Require Import List NArith Bool.
Import ListNotations.
From Verif Require Import Base LRU_Model LRU_Spec LRU_Proofs.

(** Every history of operations on a cache of positive capacity runs without undefined
    behaviour and answers exactly as the recency list of LRU_Spec.v does. *)
Theorem C01_lru_behaves_as_recency_list :
  forall (K V : Type) (K_dec : forall a b : K, {a = b} + {a <> b}) (cap : N) (os : list (lru_op K V)),
    (0 < cap)%N -> caps_positive os ->
    exists c', lru_run K_dec (lru_new cap) os = Ret (c', snd (spec_run K_dec (cap, []) os)).
Proof. exact @lru_refines_spec. Qed.
Print Assumptions C01_lru_behaves_as_recency_list.

Example C01_example :
  lru_run N.eq_dec (lru_new 2)
    [OpInsert 1%N 10%N; OpInsert 2%N 20%N; OpGet 1%N; OpInsert 3%N 30%N; OpGet 2%N; OpGet 1%N; OpSize]
  = Ret ({| m_map := [(1%N, (10%N, 4%N)); (3%N, (30%N, 3%N))]; m_list := [(4%N, 1%N); (3%N, 3%N)];
            m_capacity := 2; next_id := 5 |},
         [OutUnit; OutUnit; OutVal (Some 10%N); OutUnit; OutVal None; OutVal (Some 10%N); OutNum 2%N]).
Proof. vm_compute. reflexivity. Qed.

(** The size never exceeds the largest capacity that was in force. *)
Theorem C01_lru_size_bounded :
  forall (K V : Type) (K_dec : forall a b : K, {a = b} + {a <> b}) (cap : N) (os : list (lru_op K V)) c' outs,
    (0 < cap)%N -> caps_positive os ->
    lru_run K_dec (lru_new cap) os = Ret (c', outs) ->
    (lru_size c' <= max_cap cap os)%N.
Proof. exact @lru_size_bound. Qed.
Print Assumptions C01_lru_size_bounded.

(** Without reset_capacity that bound is the capacity itself. *)
Theorem C01_lru_size_le_capacity :
  forall (K V : Type) (K_dec : forall a b : K, {a = b} + {a <> b}) (cap : N) (os : list (lru_op K V)) c' outs,
    (0 < cap)%N -> (forall n, ~ In (OpResetCapacity n) os) ->
    lru_run K_dec (lru_new cap) os = Ret (c', outs) ->
    (lru_size c' <= cap)%N.
Proof. exact @lru_size_bound_no_reset. Qed.
Print Assumptions C01_lru_size_le_capacity.

(** No key is ever present twice in the recency list the cache agrees with. *)
Theorem C01_lru_keys_unique :
  forall (K V : Type) (K_dec : forall a b : K, {a = b} + {a <> b}) (cap : N) (os : list (lru_op K V)),
    (0 < cap)%N -> caps_positive os ->
    NoDup (map fst (snd (fst (spec_run K_dec (cap, []) os)))).
Proof. exact @spec_keys_unique. Qed.
Print Assumptions C01_lru_keys_unique.

(** Outside the contract: with capacity 0 the first insert evicts from an empty list. *)
Theorem C01_lru_capacity_zero_refuted :
  exists os : list (lru_op N N), lru_run N.eq_dec (lru_new 0) os = UB.
Proof. exact (ex_intro _ _ lru_capacity_zero_ub). Qed.
Print Assumptions C01_lru_capacity_zero_refuted.

(** Lowering the capacity does not make the cache shrink to it, even after further inserts. *)
Theorem C01_lru_shrink_refuted :
  exists (os : list (lru_op N N)) c' outs,
    lru_run N.eq_dec (lru_new 3) os = Ret (c', outs) /\
    (m_capacity c' < lru_size c')%N /\ exists k v, last os OpClear = OpInsert k v.
Proof. exact lru_shrink_not_enforced. Qed.
Print Assumptions C01_lru_shrink_refuted.
