(** Model of rapidudf/executors/thread_pool.h with closures and executors that throw.  Extends the
    transition system of ThreadPool_Model.v; the plan of ranges is the one there. *)
From Coq Require Import List ZArith Bool.
Import ListNotations.
From Verif Require Import Base ThreadPool_Model.
Open Scope Z_scope.

(** What may throw.  [throws i]: closure(i) throws.  [refuses k]: the k-th call of async_executor_ throws (it
    has no room, or runs the closure itself and lets its exception pass).  [catches]: the executor given by the
    user catches what its closures throw; the threads of boost::asio::thread_pool do not, and call
    std::terminate (boost/asio/impl/thread_pool.ipp, thread_function). *)
Record env := mk_env { throws : Z -> bool; refuses : nat -> bool; catches : bool }.

Inductive pc :=
| Launch (todo : list (Z * Z))     (* in the launch loop of Plan *)
| Wait                             (* about to evaluate the wait predicate *)
| Sleep                            (* blocked in cv_.wait *)
| Returned                         (* Run returned; the barrier is destroyed *)
| Unwound.                         (* Run left with an exception; the barrier is destroyed *)

Inductive task := Busy (todo : list Z) | Done | Died.

Record pstate := mk_pstate {
  p_main : pc;
  p_tasks : list task;             (* one per closure launched so far *)
  p_launched : nat;                (* total_lanched_worker *)
  p_arrived : nat;                 (* arrived_ *)
  p_done : list Z                  (* history: closure(i) calls completed *)
}.

Definition pstart (ranges : list (Z * Z)) : pstate := mk_pstate (Launch ranges) [] 0 0 [].

(** What a step leads to. *)
Inductive next := Next (s : pstate) | Terminate | Undefined.

(** One transition; None = not enabled. *)
Definition pstep (E : env) (s : pstate) (a : action) : option next :=
  let '(mk_pstate m ts launched arrived don) := s in
  match a with
  | AMain =>
      match m with
      | Launch ((lo, hi) :: todo) =>      (* thread_pool.h:116-128; nothing in Plan or Run catches *)
          if refuses E launched then Some (Next (mk_pstate Unwound ts launched arrived don))
          else Some (Next (mk_pstate (Launch todo) (ts ++ [Busy (indices lo hi)]) (S launched) arrived don))
      | Launch [] =>                      (* thread_pool.h:82-84 *)
          Some (Next (mk_pstate (if Nat.eqb launched 0 then Returned else Wait) ts launched arrived don))
      | Wait =>                           (* thread_pool.h:41-44 *)
          Some (Next (mk_pstate (if Nat.leb launched arrived then Returned else Sleep) ts launched arrived don))
      | Sleep | Returned | Unwound => None
      end
  | ASpurious =>
      match m with
      | Sleep => Some (Next (mk_pstate Wait ts launched arrived don))
      | _ => None
      end
  | AWorker k =>
      match nth_error ts k with
      | Some (Busy todo) =>
          match m with
          | Returned | Unwound => Some Undefined      (* closure and barrier are references to objects that are gone *)
          | _ =>
              match todo with
              | i :: todo' =>                         (* thread_pool.h:119-121 *)
                  if throws E i then
                    if catches E then Some (Next (mk_pstate m (set_nth ts k Died) launched arrived don))
                    else Some Terminate
                  else Some (Next (mk_pstate m (set_nth ts k (Busy todo')) launched arrived (don ++ [i])))
              | [] =>                                 (* thread_pool.h:122, 35-39 *)
                  Some (Next (mk_pstate (match m with Sleep => Wait | _ => m end) (set_nth ts k Done)
                                        launched (S arrived) don))
              end
          end
      | Some Done | Some Died | None => None
      end
  end.

Inductive preach (E : env) (ranges : list (Z * Z)) : pstate -> Prop :=
| preach_start : preach E ranges (pstart ranges)
| preach_step : forall s a s', preach E ranges s -> pstep E s a = Some (Next s') -> preach E ranges s'.

(** thread_pool.h:99-103, the loop on the calling thread: the calls that ended, and whether the last one
    threw. *)
Fixpoint inline_loop (throws : Z -> bool) (n : nat) (task : Z) : list Z * bool :=
  match n with
  | O => ([], false)
  | S n' =>
      if throws task then ([], true)
      else let '(l, t) := inline_loop throws n' (wrapu 64 (task + 1)) in (task :: l, t)
  end.
Definition run_inline (throws : Z -> bool) (begin end_ : Z) : list Z * bool :=
  inline_loop throws (Z.to_nat (end_ - begin)) begin.
