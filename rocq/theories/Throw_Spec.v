(** Specification vocabulary for a parallel for whose closures may throw. *)
From Coq Require Import List ZArith.
Import ListNotations.
From Verif Require Import Base ThreadPool_Model ThreadPool_Spec Throw_Model.
Open Scope Z_scope.

(** The indices of the ranges, one range after the other. *)
Definition all_indices (rs : list (Z * Z)) : list Z := concat (map (fun r => interval (fst r) (snd r)) rs).

(** No thread can go on (threads that sleep may wake up, and go to sleep again). *)
Definition at_rest (E : env) (s : pstate) : Prop := forall a s', a <> ASpurious -> pstep E s a <> Some (Next s').

(** Steps taken one after the other. *)
Inductive psteps (E : env) : pstate -> list action -> pstate -> Prop :=
| ps_nil : forall s, psteps E s [] s
| ps_cons : forall s a s1 l s2, pstep E s a = Some (Next s1) -> psteps E s1 l s2 -> psteps E s (a :: l) s2.
