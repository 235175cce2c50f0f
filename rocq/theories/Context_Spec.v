(** What C29 and C30 say, in terms of calls and of what a program can observe. *)
From Coq Require Import List Bool Arith ZArith.
Import ListNotations.
From Verif Require Import Base Vector_Model Context_Model.

(** The class a call may create an object of. *)
Definition class_of (k : call) : option class :=
  match k with C_new c => Some c | C_get c _ => Some c | _ => None end.

(** Nothing a destructor does (its own and those of the objects it creates) uses arena memory. *)
Fixpoint plain (c : class) : Prop :=
  let (_, arena_member, spawns) := c in
  arena_member = false /\ (fix all (l : list class) := match l with [] => True | d :: l' => plain d /\ all l' end) spawns.

(** How deeply destructors that create objects nest. *)
Fixpoint nesting (c : class) : nat :=
  let (_, _, spawns) := c in
  S ((fix most (l : list class) := match l with [] => 0 | d :: l' => Nat.max (nesting d) (most l') end) spawns).

(** The call fetches an object of this type. *)
Definition fetches (t : nat) (k : call) : Prop :=
  match k with C_get c _ => type_of c = t | _ => False end.

(** No object of a type is fetched both before and after a Reset. *)
Definition never_refetched (l : list call) : Prop :=
  forall l1 l2 l3 k c v, l = l1 ++ k :: l2 ++ C_get c v :: l3 -> fetches (type_of c) k -> ~ In C_reset l2.

(** The call does not validate an object of this type. *)
Definition trusts (t : nat) (k : call) : Prop :=
  match k with C_get c (Some _) => type_of c <> t | _ => True end.

(** The bytes the elements of a vector occupy (C30). *)
Definition bytes_needed (e : element) (n : Z) : Z :=
  match e with E_bit => ((n + 7) / 8)%Z | E_bytes s => (n * s)%Z end.
