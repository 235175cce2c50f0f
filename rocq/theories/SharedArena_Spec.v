(** What the threads that share an arena rely on (C76). *)
From Coq Require Import List ZArith.
Import ListNotations.
From Verif Require Import Base Arena_Model Arena_Spec SharedArena_Model.
Open Scope Z_scope.

(** A piece of memory: for which thread, from which shared arena, the bytes. *)
Definition piece : Type := (nat * Z * region)%type.
Definition from (p : piece) : Z := snd (fst p).
Definition bytes (p : piece) : region := snd p.

(** A thread is inside Allocate of the shared arena at [a]. *)
Definition busy (w : world) (a : Z) : Prop :=
  exists th id n, at_ w th = Made a id n \/ at_ w th = Have a id n.

(** What users must do: create where no object is, use living objects, and neither reset, measure nor destroy an
    object while a thread allocates from it. *)
Definition allowed (w : world) (c : action) : Prop :=
  match c with
  | Create a => objects w a = None
  | Enter th a n => objects w a <> None /\ at_ w th = Outside /\ 0 < n < 2 ^ 64
  | Publish th => exists a id n, at_ w th = Made a id n
  | Finish th mem =>
      (exists a id n, at_ w th = Have a id n) /\
      (* what the system allocator answers overlaps no block of any arena *)
      forall n b, 0 <= n -> mem n = Some b -> 0 < b /\ (16 | b) /\ b + n < 2 ^ 64 /\
        forall id x, arenas w id = Some x -> Forall (disjoint (b, n)) (owned x)
  | ResetAll a | Usage a | Destroy _ a => objects w a <> None /\ ~ busy w a
  end.
(** No object is created at an address for which some thread still has a value from an object destroyed there. (boost
    asks for more: when a thread_specific_ptr is destroyed no other thread may have a value for it.) *)
Definition new_places (w : world) (c : action) : Prop :=
  match c with Create a => forall th, slots w th a = None | _ => True end.

(** The pieces in use after a step. *)
Definition in_use_after (w : world) (c : action) (r : outcome Z) (l : list piece) : list piece :=
  match c, r with
  | Finish th _, Ret p => match at_ w th with Have a id n => (th, a, (p, n)) :: l | _ => l end
  | ResetAll a, _ | Destroy _ a, _ => filter (fun p => negb (from p =? a)) l
  | _, _ => l
  end.

(** Executions: any interleaving of allowed steps. [also]: a further demand on steps; [good]: on their results. *)
Inductive run (also : world -> action -> Prop) (good : outcome Z -> Prop) : world -> list piece -> Prop :=
| run_start : run also good start []
| run_step w l c w' r : run also good w l -> allowed w c -> also w c -> step w c = (w', r) -> good r ->
    run also good w' (in_use_after w c r l).
(** No step fails. *)
Definition returns (r : outcome Z) : Prop := exists v, r = Ret v.
