(** Model of rapidudf/common/AtomicIntrusiveLinkedList.h as an interleaving transition
    system.  The atomic head is sequentially consistent (the acquire/release orders of the
    code give at least this for the single location head_, and they publish the `next` fields
    written before the CAS).  Memory is the map [next].  Each transition of a thread performs at
    most one access to the shared head_; an iteration of reverse()/unlinkAll(), which touches
    only nodes the thread has detached, is one transition. *)
From Coq Require Import List Bool Arith.
Import ListNotations.

Definition node := nat.
Definition tid := nat.

(** Program points of a thread. *)
Inductive pc :=
| Idle
| InsLoaded (t : node) (oldHead : option node)   (* insertHead, top of the do loop (line 111) *)
| InsLinked (t : node) (oldHead : option node)   (* after next(t) = oldHead (line 112) *)
| Reversing (head rhead : option node)           (* reverse(), while loop (line 173-181) *)
| Unlinking (head : option node).                (* unlinkAll(), while loop (line 186-194) *)

(** [avail t]: the client owns element t (it is not in a list nor being inserted), so it may
    insert it; this is the contract behind `assert(next(t) == nullptr)` (line 108). *)
Record state := {
  head : option node;
  next : node -> option node;
  pcs : tid -> pc;
  avail : node -> bool
}.

Definition init : state :=
  {| head := None; next := fun _ => None; pcs := fun _ => Idle; avail := fun _ => true |}.

(** Observable events. *)
Inductive label :=
| LPush (i : tid) (t : node) (was_empty : bool)   (* insertHead took effect; its return value *)
| LTake (i : tid) (nonempty : bool)               (* sweepOnce detached the list *)
| LTakeReverse (i : tid)                          (* reverseSweep detached the list *)
| LCall (i : tid) (t : node)                      (* func(t) *)
| LEnd (i : tid).                                 (* the sweep returns *)

(** Scheduler choices: a thread starts an operation, or takes its next step; [weak] makes
    compare_exchange_weak fail spuriously. *)
Inductive action :=
| AInsert (i : tid) (t : node)
| ASweepOnce (i : tid)
| AReverseSweep (i : tid)
| AStep (i : tid) (weak : bool).

Definition upd {A} (f : nat -> A) (k : nat) (v : A) : nat -> A :=
  fun x => if Nat.eqb x k then v else f x.

Definition opt_eqb (a b : option node) : bool :=
  match a, b with
  | None, None => true
  | Some x, Some y => Nat.eqb x y
  | _, _ => false
  end.

Definition is_null (a : option node) : bool := match a with None => true | Some _ => false end.

(** One transition; None = the action is not enabled. *)
Definition step (s : state) (a : action) : option (state * list label) :=
  match a with
  | AInsert i t =>    (* lines 107-110: oldHead = head_.load() *)
      match pcs s i with
      | Idle =>
          if avail s t then
            Some ({| head := head s; next := next s; pcs := upd (pcs s) i (InsLoaded t (head s));
                     avail := upd (avail s) t false |}, [])
          else None
      | _ => None
      end
  | ASweepOnce i =>   (* lines 129-135: head_.exchange(nullptr) *)
      match pcs s i with
      | Idle =>
          match head s with
          | Some h => Some ({| head := None; next := next s; pcs := upd (pcs s) i (Reversing (Some h) None);
                               avail := avail s |}, [LTake i true])
          | None => Some ({| head := None; next := next s; pcs := pcs s; avail := avail s |}, [LTake i false; LEnd i])
          end
      | _ => None
      end
  | AReverseSweep i =>   (* lines 160-166 *)
      match pcs s i with
      | Idle => Some ({| head := None; next := next s; pcs := upd (pcs s) i (Unlinking (head s));
                         avail := avail s |}, [LTakeReverse i])
      | _ => None
      end
  | AStep i weak =>
      match pcs s i with
      | Idle => None
      | InsLoaded t old =>   (* line 112: next(t) = oldHead *)
          Some ({| head := head s; next := upd (next s) t old; pcs := upd (pcs s) i (InsLinked t old);
                   avail := avail s |}, [])
      | InsLinked t old =>   (* lines 119-121: compare_exchange_weak *)
          if opt_eqb (head s) old && negb weak then
            Some ({| head := Some t; next := next s; pcs := upd (pcs s) i Idle; avail := avail s |},
                  [LPush i t (is_null old)])
          else
            Some ({| head := head s; next := next s; pcs := upd (pcs s) i (InsLoaded t (head s));
                     avail := avail s |}, [])
      | Reversing (Some h) r =>   (* lines 175-179 *)
          Some ({| head := head s; next := upd (next s) h r; pcs := upd (pcs s) i (Reversing (next s h) (Some h));
                   avail := avail s |}, [])
      | Reversing None r =>
          Some ({| head := head s; next := next s; pcs := upd (pcs s) i (Unlinking r); avail := avail s |}, [])
      | Unlinking (Some t) =>   (* lines 188-192: next(t) = nullptr; func(t) *)
          Some ({| head := head s; next := upd (next s) t None; pcs := upd (pcs s) i (Unlinking (next s t));
                   avail := upd (avail s) t true |}, [LCall i t])
      | Unlinking None =>
          Some ({| head := head s; next := next s; pcs := upd (pcs s) i Idle; avail := avail s |}, [LEnd i])
      end
  end.

(** Executions: any finite schedule of enabled actions, with the events in order. *)
Inductive exec : state -> list label -> Prop :=
| exec_nil : exec init []
| exec_step : forall s tr a s' ls, exec s tr -> step s a = Some (s', ls) -> exec s' (tr ++ ls).
