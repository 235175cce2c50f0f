(** Searching and splitting byte strings. *)
From Coq Require Import List ZArith Bool.
Import ListNotations.
Local Open Scope Z_scope.

(** [p] occurs in [s] at position [i]. *)
Definition occurs_at (p s : list Z) (i : Z) : Prop :=
  exists a b, s = a ++ p ++ b /\ Z.of_nat (length a) = i.

(** [r] is the position of the first occurrence, or -1 if there is none. *)
Definition first_occurrence (p s : list Z) (r : Z) : Prop :=
  (r = -1 /\ forall i, ~ occurs_at p s i) \/
  (occurs_at p s r /\ forall i, occurs_at p s i -> r <= i).

(** [fields] are the pieces of [s] between the occurrences of [sep], taken from the left without
    overlap. *)
Inductive splits (sep : list Z) : list Z -> list (list Z) -> Prop :=
| splits_last s : (forall i, ~ occurs_at sep s i) -> splits sep s [s]
| splits_next f rest fields :
    first_occurrence sep (f ++ sep ++ rest) (Z.of_nat (length f)) ->
    splits sep rest fields -> splits sep (f ++ sep ++ rest) (f :: fields).

(** The result of split leaves out the empty pieces. *)
Definition non_empty (fields : list (list Z)) : list (list Z) :=
  filter (fun f => match f with [] => false | _ => true end) fields.
