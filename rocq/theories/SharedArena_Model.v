(** Model of ThreadCachedArena (rapidudf/memory/arena.h:110-168 and arena.cc): an arena used by many threads, which
    keeps one Arena per thread in a boost::thread_specific_ptr. Interleavings of the threads' steps; memory orders are
    sequentially consistent, and the two critical sections are single steps. *)
From Coq Require Import List ZArith Bool Arith.
Import ListNotations.
From Verif Require Import Base Arena_Model.
Open Scope Z_scope.

(** boost::thread_specific_ptr<T> keeps, for each thread, a map from the addresses of thread_specific_ptr objects to
    values: [slots th a]. Its destructor removes the entry of the thread that runs it and no other.
    [arenas]: the Arena objects on the heap, by number; [next]: the next number. [objects a]: the ThreadCachedArena
    at address [a] with its member all_arenas_; None: no such object. [at_ th]: where thread [th] is inside Allocate. *)
Inductive place : Type :=
| Outside
| Made (a : Z) (id : nat) (n : Z)    (* arena.cc:29: after arena_.reset(arena) *)
| Have (a : Z) (id : nat) (n : Z).   (* arena.h:141: GetArena() has returned *)
Record world : Type := World {
  arenas : nat -> option arena;
  next : nat;
  slots : nat -> Z -> option nat;
  objects : Z -> option (list nat);
  at_ : nat -> place
}.
Definition start : world := World (fun _ => None) 0 (fun _ _ => None) (fun _ => None) (fun _ => Outside).

Definition upd_n {A} (f : nat -> A) (i : nat) (x : A) : nat -> A := fun j => if Nat.eqb j i then x else f j.
Definition upd_z {A} (f : Z -> A) (i : Z) (x : A) : Z -> A := fun j => if j =? i then x else f j.
Definition set_arenas f w := World f (next w) (slots w) (objects w) (at_ w).
Definition set_objects f w := World (arenas w) (next w) (slots w) f (at_ w).
Definition set_at th p w := World (arenas w) (next w) (slots w) (objects w) (upd_n (at_ w) th p).
Definition set_slot th a v w := World (arenas w) (next w) (upd_n (slots w) th (upd_z (slots w th) a v)) (objects w) (at_ w).

Inductive action : Type :=
| Create (a : Z)                                   (* arena.cc:20-23 *)
| Enter (th : nat) (a : Z) (n : Z)                 (* arena.h:141, arena.cc:24-28: look at the slot, fill it *)
| Publish (th : nat)                               (* arena.cc:29-30: lock, all_arenas_.emplace_back *)
| Finish (th : nat) (mem : Z -> option Z)          (* arena.h:141: Arena::Allocate *)
| ResetAll (a : Z)                                 (* arena.cc:35-40 *)
| Usage (a : Z)                                    (* arena.cc:42-49 *)
| Destroy (th : nat) (a : Z).                      (* arena.cc:51-55, then ~thread_specific_ptr *)

(** arena.cc:37-39: Reset of each Arena; None: one of them is gone *)
Fixpoint reset_arenas (cf : config) (ids : list nat) (h : nat -> option arena) : option (nat -> option arena) :=
  match ids with
  | [] => Some h
  | id :: ids => match h id with None => None | Some x => reset_arenas cf ids (upd_n h id (Some (clear cf x))) end
  end.
(** arena.cc:42-49 *)
Fixpoint sum_usage (ids : list nat) (h : nat -> option arena) (total : Z) : option Z :=
  match ids with
  | [] => Some total
  | id :: ids => match h id with None => None | Some x => sum_usage ids h (wrapu 64 (total + bytesUsed x)) end
  end.
(** arena.cc:52-54: delete of each Arena *)
Fixpoint delete_arenas (ids : list nat) (h : nat -> option arena) : option (nat -> option arena) :=
  match ids with
  | [] => Some h
  | id :: ids => match h id with None => None | Some _ => delete_arenas ids (upd_n h id None) end
  end.

(** One step. Ret: the number returned (0 for nothing); Err: std::bad_alloc. *)
Definition step (w : world) (c : action) : world * outcome Z :=
  let cf := default_config in
  match c with
  | Create a => (set_objects (upd_z (objects w) a (Some [])) w, Ret 0)
  | Enter th a n =>
      match objects w a with
      | None => (w, UB)
      | Some _ =>
          match slots w th a with
          | Some id => (set_at th (Have a id n) w, Ret 0)
          | None =>
              let id := next w in
              let w := World (upd_n (arenas w) id (Some arena_new)) (S id) (slots w) (objects w) (at_ w) in
              (set_at th (Made a id n) (set_slot th a (Some id) w), Ret 0)
          end
      end
  | Publish th =>
      match at_ w th with
      | Made a id n =>
          match objects w a with
          | None => (w, UB)
          | Some ids => (set_at th (Have a id n) (set_objects (upd_z (objects w) a (Some (ids ++ [id]))) w), Ret 0)
          end
      | _ => (w, Ret 0)
      end
  | Finish th mem =>
      match at_ w th with
      | Have a id n =>
          match arenas w id with
          | None => (w, UB)
          | Some x => let (x, r) := allocate cf x n mem in (set_at th Outside (set_arenas (upd_n (arenas w) id (Some x)) w), r)
          end
      | _ => (w, Ret 0)
      end
  | ResetAll a =>
      match objects w a with
      | None => (w, UB)
      | Some ids => match reset_arenas cf ids (arenas w) with None => (w, UB) | Some h => (set_arenas h w, Ret 0) end
      end
  | Usage a =>
      match objects w a with
      | None => (w, UB)
      | Some ids => match sum_usage ids (arenas w) 0 with None => (w, UB) | Some n => (w, Ret n) end
      end
  | Destroy th a =>
      match objects w a with
      | None => (w, UB)
      | Some ids =>
          match delete_arenas ids (arenas w) with
          | None => (w, UB)
          | Some h => (set_slot th a None (set_objects (upd_z (objects w) a None) (set_arenas h w)), Ret 0)
          end
      end
  end.
