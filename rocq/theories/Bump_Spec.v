(** What a user of the bump arena relies on, in terms of byte ranges. *)
From Coq Require Import List ZArith.
Import ListNotations.
From Verif Require Import Base Bump_Model.
Open Scope Z_scope.

(** A byte range: first address, length. *)
Definition range := (Z * Z)%type.

Definition apart (r s : range) : Prop :=
  fst r + snd r <= fst s \/ fst s + snd s <= fst r.

Definition within (r s : range) : Prop :=
  fst s <= fst r /\ fst r + snd r <= fst s + snd s.

Definition asked (o : bump_op) : Z := match o with OAllocate n _ | OAligned n _ => n end.

(** What is assumed of `new char[n]`, given the ranges it has handed out before: a non-null
    address, a multiple of 16, of a range that fits the address space and is apart from them. *)
Definition new_ok (before : list range) (mem : Z -> option Z) : Prop :=
  forall n b, mem n = Some b ->
    0 < b /\ (16 | b) /\ b + n < 2 ^ 64 /\ Forall (apart (b, n)) before.

(** A request: a positive number of bytes, no more than an object can have. *)
Definition request_ok (a : bump) (o : bump_op) : Prop :=
  0 < asked o < 2 ^ 63 /\
  match o with OAllocate _ mem | OAligned _ mem => new_ok (blocks a) mem end.

(** The state after a history of requests, and the ranges given out, latest first, each with
    whether alignment was asked for. *)
Inductive given : bump -> list (range * bool) -> Prop :=
| g_new : given bump_new []
| g_ret : forall a l o a' p,
    given a l -> request_ok a o -> bump_step a o = (a', Ret p) ->
    given a' (((p, asked o), match o with OAligned _ _ => true | _ => false end) :: l)
| g_err : forall a l o a',
    given a l -> request_ok a o -> bump_step a o = (a', Err) -> given a' l.

(** The number of bytes in a list of ranges. *)
Definition bytes_of (l : list range) : Z := fold_right (fun r s => snd r + s) 0 l.

(** What may be lost before a range to align it. *)
Definition gaps (l : list (range * bool)) : Z :=
  fold_right (fun (r : range * bool) s => (if snd r then 7 else 0) + s) 0 l.
