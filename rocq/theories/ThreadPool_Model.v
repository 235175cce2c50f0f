(** Model of rapidudf/executors/thread_pool.h: Plan, Run and PoolBarrier. *)
From Coq Require Import List ZArith Bool.
Import ListNotations.
From Verif Require Import Base.
Open Scope Z_scope.

(** thread_pool.h:111-128, the loop over workers: [thread] is the loop variable, [n] the number
    of iterations left; the result lists the (my_start, my_end) of the posted closures. *)
Fixpoint plan_loop (n : nat) (thread task end_ min_tasks remainder : Z) : list (Z * Z) :=
  match n with
  | O => []
  | S n' =>
      if end_ <=? task then []
      else
        let my_end := wrapu 64 (task + min_tasks + (if thread <? remainder then 1 else 0)) in
        (task, my_end) :: plan_loop n' (thread + 1) my_end end_ min_tasks remainder
  end.

Inductive plan_result :=
| PlanInline (begin end_ : Z)            (* run on the calling thread (lines 99-103) *)
| PlanPosted (ranges : list (Z * Z)).    (* posted closures, in launch order *)

(** thread_pool.h:89-133, Plan: what is run where.  HWY_DASSERT is a debug-only check. *)
Definition plan (begin end_ num_workers : Z) : plan_result :=
  let num_tasks := wrapu 64 (end_ - begin) in
  if num_tasks =? 0 then PlanPosted []
  else if num_workers <=? 1 then PlanInline begin end_
  else
    let remainder := num_tasks mod num_workers in
    let min_tasks := num_tasks / num_workers in
    PlanPosted (plan_loop (Z.to_nat num_workers) 0 begin end_ min_tasks remainder).

(** thread_pool.h:73-81, the number of workers Run uses. *)
Definition run_workers (pool_workers requested : Z) : Z :=
  if requested =? 0 then pool_workers else Z.min requested pool_workers.

(** thread_pool.h:52-60, constructor. *)
Definition pool_workers (num_threads : Z) : Z := if num_threads =? 0 then 8 else num_threads.

(** thread_pool.h:69-83: what ThreadPool(threads).Run(b, e, closure, requested) distributes. *)
Definition run_plan (threads requested b e : Z) : plan_result :=
  plan b e (run_workers (pool_workers threads) requested).

(** for (i = lo; i < hi; i++) : the indices of a range, in order. *)
Definition indices (lo hi : Z) : list Z := map (fun k => lo + Z.of_nat k) (seq 0 (Z.to_nat (hi - lo))).

(** The executions of Run (posted case) as a transition system.  The two critical sections of
    PoolBarrier (WorkerArrive, and the predicate check of cv_.wait) are single transitions,
    because both run under mu_.  Posted closures may run at any time, on any thread.  *)
Inductive main_pc :=
| MLaunch (todo : list (Z * Z))    (* in the launch loop of Plan *)
| MWait                            (* about to evaluate the wait predicate *)
| MSleep                           (* blocked in cv_.wait *)
| MReturned.                       (* Run returned; the barrier is destroyed *)

Inductive worker := Working (todo : list Z) | Arrived.

Record state := {
  main : main_pc;
  workers : list worker;           (* one per closure launched so far *)
  launched : nat;                  (* total_lanched_worker *)
  arrived : nat;                   (* arrived_ *)
  done : list Z                    (* history: closure(i) calls completed *)
}.

Definition start (ranges : list (Z * Z)) : state :=
  {| main := MLaunch ranges; workers := []; launched := 0; arrived := 0; done := [] |}.

Inductive action := AMain | AWorker (k : nat) | ASpurious.

Fixpoint set_nth {A} (l : list A) (k : nat) (x : A) : list A :=
  match l, k with
  | [], _ => []
  | _ :: l', O => x :: l'
  | y :: l', S k' => y :: set_nth l' k' x
  end.

(** One transition; None = not enabled.  [UB] : a worker uses the barrier after Run returned. *)
Definition step (s : state) (a : action) : option (outcome state) :=
  match a with
  | AMain =>
      match main s with
      | MLaunch ((lo, hi) :: todo) =>     (* lines 116-128: post(task_f) *)
          Some (Ret {| main := MLaunch todo; workers := workers s ++ [Working (indices lo hi)];
                       launched := S (launched s); arrived := arrived s; done := done s |})
      | MLaunch [] =>                     (* lines 82-84 *)
          Some (Ret {| main := if Nat.eqb (launched s) 0 then MReturned else MWait; workers := workers s;
                       launched := launched s; arrived := arrived s; done := done s |})
      | MWait =>                          (* lines 41-44 *)
          Some (Ret {| main := if Nat.leb (launched s) (arrived s) then MReturned else MSleep; workers := workers s;
                       launched := launched s; arrived := arrived s; done := done s |})
      | MSleep => None
      | MReturned => None
      end
  | ASpurious =>
      match main s with
      | MSleep => Some (Ret {| main := MWait; workers := workers s; launched := launched s;
                               arrived := arrived s; done := done s |})
      | _ => None
      end
  | AWorker k =>
      match nth_error (workers s) k with
      | Some (Working (i :: todo)) =>     (* lines 119-121: closure(i) *)
          Some (Ret {| main := main s; workers := set_nth (workers s) k (Working todo);
                       launched := launched s; arrived := arrived s; done := done s ++ [i] |})
      | Some (Working []) =>              (* line 122, lines 35-39: ++arrived_; notify_one *)
          match main s with
          | MReturned => Some UB
          | _ => Some (Ret {| main := match main s with MSleep => MWait | m => m end;
                              workers := set_nth (workers s) k Arrived;
                              launched := launched s; arrived := S (arrived s); done := done s |})
          end
      | Some Arrived | None => None
      end
  end.

Inductive reach (ranges : list (Z * Z)) : state -> Prop :=
| reach_start : reach ranges (start ranges)
| reach_step : forall s a s', reach ranges s -> step s a = Some (Ret s') -> reach ranges s'.
