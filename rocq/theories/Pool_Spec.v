(** What a user of the node pool relies on: lifetimes of objects and the memory they are in. *)
From Coq Require Import List ZArith.
Import ListNotations.
From Verif Require Import Base Arena_Model Arena_Spec Pool_Model.
Open Scope Z_scope.

Record obj := { o_id : nat; o_at : Z; o_size : Z; o_destructible : bool }.

Definition made (o : obj) : event := Made (o_id o) (o_at o) (o_size o) (o_destructible o).

(** The end of a round: the destructors of those objects that have one, the latest object
    first, and only then is the memory given up. *)
Definition closing (l : list obj) : list event :=
  map (fun o => Gone (o_id o)) (rev (filter o_destructible l)) ++ [Recycled].

(** The life of a pool: rounds that have ended, and the objects made since. *)
Definition life (ended : list (list obj)) (current : list obj) : list event :=
  flat_map (fun l => map made l ++ closing l) ended ++ map made current.

Definition extent (o : obj) : region := (o_at o, o_size o).

Definition pool_op_ok (p : pool) (o : pool_op) : Prop :=
  match o with
  | PNew n _ sys | PRaw n sys => 0 < n < 2 ^ 64 /\ system_answer_ok (mem_ p) sys
  | PReset => True
  end.

(** The states of a pool and what has happened so far. *)
Inductive pool_history : pool -> list event -> Prop :=
| ph_new : pool_history pool_new []
| ph_ret : forall p tr o p' es,
    pool_history p tr -> pool_op_ok p o -> pool_step p o = (p', Ret es) -> pool_history p' (tr ++ es)
| ph_err : forall p tr o p',
    pool_history p tr -> pool_op_ok p o -> pool_step p o = (p', Err) -> pool_history p' tr.

(** How often something happened. *)
Definition times_gone (k : nat) (tr : list event) : nat :=
  length (filter (fun e => match e with Gone j => Nat.eqb j k | _ => false end) tr).

Definition has_been_made (k : nat) (destructible : bool) (tr : list event) : Prop :=
  exists a n, In (Made k a n destructible) tr.

Definition vcount (f : vevent -> bool) (l : list vevent) : nat := length (filter f l).
Definition constructs (k : nat) (e : vevent) : bool := match e with Constructed j => Nat.eqb j k | _ => false end.
Definition destroys (k : nat) (e : vevent) : bool := match e with Destroyed j => Nat.eqb j k | _ => false end.
Definition takes (n : nat) (e : vevent) : bool := match e with Taken m => Nat.eqb m n | _ => false end.
Definition returns (n : nat) (e : vevent) : bool := match e with Returned m => Nat.eqb m n | _ => false end.
