(** Specification of an LRU cache: a list of (key, value), most recently used first. *)
From Coq Require Import List NArith Bool.
Import ListNotations.
From Verif Require Import LRU_Model.

Section Spec.
Context {K V : Type}.
Variable K_dec : forall a b : K, {a = b} + {a <> b}.

Fixpoint lookup (l : list (K * V)) (k : K) : option V :=
  match l with
  | [] => None
  | (k', v) :: l' => if K_dec k k' then Some v else lookup l' k
  end.

Fixpoint remove (l : list (K * V)) (k : K) : list (K * V) :=
  match l with
  | [] => []
  | (k', v) :: l' => if K_dec k k' then remove l' k else (k', v) :: remove l' k
  end.

(** Insert: an existing key is left alone (value and recency); a new key goes to the
    front, and a full cache first loses its last (least recently used) entry. *)
Definition spec_insert (cap : N) (l : list (K * V)) (k : K) (v : V) : list (K * V) :=
  match lookup l k with
  | Some _ => l
  | None => (k, v) :: (if N.leb cap (N.of_nat (length l)) then removelast l else l)
  end.

(** A hit moves the entry to the front. *)
Definition spec_get (l : list (K * V)) (k : K) : list (K * V) * option V :=
  match lookup l k with
  | None => (l, None)
  | Some v => ((k, v) :: remove l k, Some v)
  end.

Definition spec_step (st : N * list (K * V)) (o : lru_op K V) : (N * list (K * V)) * lru_out V :=
  let '(cap, l) := st in
  match o with
  | OpInsert k v => ((cap, spec_insert cap l k v), OutUnit)
  | OpGet k => let '(l', r) := spec_get l k in ((cap, l'), OutVal r)
  | OpContains k => (st, OutBool (match lookup l k with Some _ => true | None => false end))
  | OpErase k => ((cap, remove l k), OutUnit)
  | OpClear => ((cap, []), OutUnit)
  | OpSize => (st, OutNum (N.of_nat (length l)))
  | OpResetCapacity n => ((n, l), OutUnit)
  | OpGetOrInsert k v =>
      match spec_get l k with
      | (l', Some v') => ((cap, l'), OutVal (Some v'))
      | (l', None) => ((cap, spec_insert cap l' k v), OutVal (Some v))
      end
  end.

Fixpoint spec_run (st : N * list (K * V)) (os : list (lru_op K V)) : (N * list (K * V)) * list (lru_out V) :=
  match os with
  | [] => (st, [])
  | o :: os' => let '(st1, r) := spec_step st o in
                let '(st2, rs) := spec_run st1 os' in (st2, r :: rs)
  end.

(** Capacities used anywhere in a history are positive. *)
Definition caps_positive (os : list (lru_op K V)) : Prop :=
  forall n, In (OpResetCapacity n) os -> (0 < n)%N.
(** Largest capacity in force during a history. *)
Fixpoint max_cap (c : N) (os : list (lru_op K V)) : N :=
  match os with
  | [] => c
  | OpResetCapacity n :: os' => max_cap (N.max c n) os'
  | _ :: os' => max_cap c os'
  end.
End Spec.
