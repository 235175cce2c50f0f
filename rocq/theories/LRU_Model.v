(** Model of rapidudf/common/lru_cache.h (class lru_cache and ThreadCachedLRU). *)
From Coq Require Import List NArith Bool.
Import ListNotations.
From Verif Require Import Base.

Section LRU.
Context {K V : Type}.
Variable K_dec : forall a b : K, {a = b} + {a <> b}.

(** lru_cache.h:126-128, members m_map, m_list, m_capacity.
    A std::list iterator is modelled by the unique id of the node it designates;
    [next_id] supplies fresh node ids (push_front allocates a node).
    The hash map is an association list; iteration order is never observed by
    the class, so this loses nothing. *)
Record lru := {
  m_map : list (K * (V * N));
  m_list : list (N * K);
  m_capacity : N;
  next_id : N
}.

(** lru_cache.h:38, constructor. *)
Definition lru_new (capacity : N) : lru :=
  {| m_map := []; m_list := []; m_capacity := capacity; next_id := 0%N |}.

(** m_map.find(key). *)
Fixpoint map_find (m : list (K * (V * N))) (k : K) : option (V * N) :=
  match m with
  | [] => None
  | (k', x) :: m' => if K_dec k k' then Some x else map_find m' k
  end.

(** m_map.erase(key). *)
Definition map_erase (m : list (K * (V * N))) (k : K) : list (K * (V * N)) :=
  filter (fun e => if K_dec k (fst e) then false else true) m.

(** m_map[key] = x : replaces or inserts. *)
Definition map_set (m : list (K * (V * N))) (k : K) (x : V * N) : list (K * (V * N)) :=
  (k, x) :: map_erase m k.

(** m_list.erase(iterator): undefined when the node is not in the list. *)
Fixpoint list_erase (l : list (N * K)) (id : N) : option (list (N * K)) :=
  match l with
  | [] => None
  | (i, k) :: l' =>
      if N.eqb i id then Some l'
      else match list_erase l' id with Some r => Some ((i, k) :: r) | None => None end
  end.

(** lru_cache.h:42, size(). *)
Definition lru_size (c : lru) : N := N.of_nat (length (m_map c)).

(** lru_cache.h:46, reset_capacity(n): only stores the new capacity. *)
Definition lru_reset_capacity (c : lru) (n : N) : lru :=
  {| m_map := m_map c; m_list := m_list c; m_capacity := n; next_id := next_id c |}.

(** lru_cache.h:50, contains(key): does not touch the recency order. *)
Definition lru_contains (c : lru) (k : K) : bool :=
  match map_find (m_map c) k with Some _ => true | None => false end.

(** lru_cache.h:118-123, evict(): `--m_list.end()` on an empty list is undefined. *)
Definition lru_evict (c : lru) : outcome lru :=
  match rev (m_list c) with
  | [] => UB
  | (i, k) :: _ =>
      match list_erase (m_list c) i with
      | None => UB
      | Some l' => Ret {| m_map := map_erase (m_map c) k; m_list := l';
                          m_capacity := m_capacity c; next_id := next_id c |}
      end
  end.

(** lru_cache.h:52-65, insert(key, value). *)
Definition lru_insert (c : lru) (k : K) (v : V) : outcome lru :=
  match map_find (m_map c) k with
  | Some _ => Ret c
  | None =>
      do! c1 <- (if N.leb (m_capacity c) (lru_size c) then lru_evict c else Ret c);
      let id := next_id c1 in
      Ret {| m_map := map_set (m_map c1) k (v, id);
             m_list := (id, k) :: m_list c1;
             m_capacity := m_capacity c1;
             next_id := N.succ id |}
  end.

(** lru_cache.h:67-80, erase(key). *)
Definition lru_erase (c : lru) (k : K) : outcome lru :=
  match map_find (m_map c) k with
  | None => Ret c
  | Some (_, j) =>
      match list_erase (m_list c) j with
      | None => UB
      | Some l' => Ret {| m_map := map_erase (m_map c) k; m_list := l';
                          m_capacity := m_capacity c; next_id := next_id c |}
      end
  end.

(** lru_cache.h:82-110, get(key). *)
Definition lru_get (c : lru) (k : K) : outcome (lru * option V) :=
  match map_find (m_map c) k with
  | None => Ret (c, None)
  | Some (v, j) =>
      let at_begin := match m_list c with [] => false | (i, _) :: _ => N.eqb i j end in
      if at_begin then Ret (c, Some v)
      else
        match list_erase (m_list c) j with
        | None => UB
        | Some l' =>
            let id := next_id c in
            Ret ({| m_map := map_set (m_map c) k (v, id);
                    m_list := (id, k) :: l';
                    m_capacity := m_capacity c;
                    next_id := N.succ id |}, Some v)
        end
  end.

(** lru_cache.h:112-115, clear(). *)
Definition lru_clear (c : lru) : lru :=
  {| m_map := []; m_list := []; m_capacity := m_capacity c; next_id := next_id c |}.

(** lru_cache.h:146-154, ThreadCachedLRU::GetOrInsert, with func() = [v]
    (the per-thread instance makes it an lru_cache of its own). *)
Definition lru_get_or_insert (c : lru) (k : K) (v : V) : outcome (lru * V) :=
  do! (c1, r) <- lru_get c k;
  match r with
  | Some v' => Ret (c1, v')
  | None => do! c2 <- lru_insert c1 k v; Ret (c2, v)
  end.

(** The public operations and what each reports. *)
Inductive lru_op :=
| OpInsert (k : K) (v : V)
| OpGet (k : K)
| OpContains (k : K)
| OpErase (k : K)
| OpClear
| OpSize
| OpResetCapacity (n : N)
| OpGetOrInsert (k : K) (v : V).

Inductive lru_out :=
| OutUnit
| OutVal (v : option V)
| OutBool (b : bool)
| OutNum (n : N).

Definition lru_step (c : lru) (o : lru_op) : outcome (lru * lru_out) :=
  match o with
  | OpInsert k v => do! c' <- lru_insert c k v; Ret (c', OutUnit)
  | OpGet k => do! (c', r) <- lru_get c k; Ret (c', OutVal r)
  | OpContains k => Ret (c, OutBool (lru_contains c k))
  | OpErase k => do! c' <- lru_erase c k; Ret (c', OutUnit)
  | OpClear => Ret (lru_clear c, OutUnit)
  | OpSize => Ret (c, OutNum (lru_size c))
  | OpResetCapacity n => Ret (lru_reset_capacity c n, OutUnit)
  | OpGetOrInsert k v => do! (c', r) <- lru_get_or_insert c k v; Ret (c', OutVal (Some r))
  end.

Fixpoint lru_run (c : lru) (os : list lru_op) : outcome (lru * list lru_out) :=
  match os with
  | [] => Ret (c, [])
  | o :: os' =>
      do! (c1, r) <- lru_step c o;
      do! (c2, rs) <- lru_run c1 os';
      Ret (c2, r :: rs)
  end.
End LRU.

Arguments lru : clear implicits.
Arguments lru_op : clear implicits.
Arguments lru_out : clear implicits.
