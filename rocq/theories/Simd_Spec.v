(** What the vector functions should compute, on plain lists. *)
From Coq Require Import List ZArith Bool.
Import ListNotations.
From Verif Require Import Base Vector_Spec.
Local Open Scope Z_scope.

(** The elements of a Bit vector of [n] elements stored in [mem]. *)
Definition bits_of (mem : list Z) (n : nat) : list bool := map (fun i => bit_of mem (Z.of_nat i)) (seq 0 n).

(** Number of true elements. *)
Definition count_true_spec (l : list bool) : Z := Z.of_nat (length (filter (fun b => b) l)).

(** The elements selected by a mask, in order. *)
Fixpoint select {A} (mask : list bool) (l : list A) : list A :=
  match mask, l with
  | m :: mask', x :: l' => if m then x :: select mask' l' else select mask' l'
  | _, _ => []
  end.

(** [r] is the first index of [l] whose element satisfies [p], or -1. *)
Definition first_index {A} (p : A -> bool) (l : list A) (r : Z) : Prop :=
  (r = -1 /\ forall x, In x l -> p x = false) \/
  (exists i x, r = Z.of_nat i /\ nth_error l i = Some x /\ p x = true /\
     forall j y, (j < i)%nat -> nth_error l j = Some y -> p y = false).

(** Bounds-checked indexing. *)
Definition index_or {A} (zero : A) (l : list A) (i : Z) : A :=
  if i <? 0 then zero else nth (Z.to_nat i) l zero.

Fixpoint sum_list (l : list Z) : Z := match l with [] => 0 | x :: l' => x + sum_list l' end.

(** Integer element types: width and signedness. *)
Record itype := mk_itype { bits : Z; signed : bool }.
Definition wf_itype (t : itype) : Prop := In (bits t) [8; 16; 32; 64].
Definition in_type (t : itype) (x : Z) : Prop := if signed t then in_s (bits t) x else in_u (bits t) x.
Definition wrap (t : itype) (x : Z) : Z := if signed t then wraps (bits t) x else wrapu (bits t) x.
Definition lowest (t : itype) : Z := if signed t then - 2 ^ (bits t - 1) else 0.
Definition highest (t : itype) : Z := if signed t then 2 ^ (bits t - 1) - 1 else 2 ^ bits t - 1.
