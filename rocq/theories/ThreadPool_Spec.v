(** Specification vocabulary for the parallel for. *)
From Coq Require Import List ZArith.
Import ListNotations.
From Verif Require Import Base ThreadPool_Model.
Open Scope Z_scope.

(** The indices lo, lo+1, ..., hi-1. *)
Definition interval (lo hi : Z) : list Z := map (fun k => lo + Z.of_nat k) (seq 0 (Z.to_nat (hi - lo))).

(** Which indices a plan runs, range after range. *)
Definition plan_indices (p : plan_result) : list Z :=
  match p with
  | PlanInline b e => interval b e
  | PlanPosted rs => concat (map (fun r => interval (fst r) (snd r)) rs)
  end.

Definition ranges_of (p : plan_result) : list (Z * Z) :=
  match p with PlanInline _ _ => [] | PlanPosted rs => rs end.

(** A schedule: actions taken one after the other, all enabled, none undefined. *)
Inductive schedule : state -> list action -> state -> Prop :=
| sch_nil : forall s, schedule s [] s
| sch_cons : forall s a s1 l s2, step s a = Some (Ret s1) -> schedule s1 l s2 -> schedule s (a :: l) s2.
