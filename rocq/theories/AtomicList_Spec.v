(** Specification: one atomic queue; a sweep takes everything queued at once and then hands the
    elements out one by one. *)
From Coq Require Import List Bool Arith.
Import ListNotations.
From Verif Require Import AtomicList_Model.

(** Elements in the order their pushes took effect; per thread, elements still to hand out. *)
Record qstate := { queue : list node; pending : tid -> list node }.

Definition q_init : qstate := {| queue := []; pending := fun _ => [] |}.

Definition is_empty (l : list node) : bool := match l with [] => true | _ => false end.

Inductive q_step : qstate -> label -> qstate -> Prop :=
| q_push : forall q p i t,
    q_step {| queue := q; pending := p |} (LPush i t (is_empty q)) {| queue := q ++ [t]; pending := p |}
| q_take : forall q p i, p i = [] ->
    q_step {| queue := q; pending := p |} (LTake i (negb (is_empty q))) {| queue := []; pending := upd p i q |}
| q_take_reverse : forall q p i, p i = [] ->
    q_step {| queue := q; pending := p |} (LTakeReverse i) {| queue := []; pending := upd p i (rev q) |}
| q_call : forall q p i t rest, p i = t :: rest ->
    q_step {| queue := q; pending := p |} (LCall i t) {| queue := q; pending := upd p i rest |}
| q_end : forall q p i, p i = [] ->
    q_step {| queue := q; pending := p |} (LEnd i) {| queue := q; pending := p |}.

Inductive q_exec : qstate -> list label -> Prop :=
| q_exec_nil : q_exec q_init []
| q_exec_step : forall c tr l c', q_exec c tr -> q_step c l c' -> q_exec c' (tr ++ [l]).

(** Counting events about one element. *)
Definition pushes (t : node) (tr : list label) : nat :=
  length (filter (fun l => match l with LPush _ t' _ => Nat.eqb t' t | _ => false end) tr).
Definition calls (t : node) (tr : list label) : nat :=
  length (filter (fun l => match l with LCall _ t' => Nat.eqb t' t | _ => false end) tr).

(** Every thread is between operations and the list is empty. *)
Definition quiescent (s : state) : Prop := (forall i, pcs s i = Idle) /\ head s = None.

(** The linked list from [h] is exactly [l]. *)
Fixpoint chain (nx : node -> option node) (h : option node) (l : list node) : Prop :=
  match l with
  | [] => h = None
  | t :: l' => h = Some t /\ chain nx (nx t) l'
  end.
