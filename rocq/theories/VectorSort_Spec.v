(** Specification of C66, and the documented behaviour of x86simdsort. *)
From Coq Require Import List Bool Arith ZArith Permutation.
Import ListNotations.
From Verif Require Import Base VectorSort_Model.

Section Spec.
Context {T V : Type}.
Variable leb : T -> T -> bool.

(** [x] may stand before [y]. *)
Definition before (descending : bool) (x y : T) : Prop := if descending then leb y x = true else leb x y = true.
(** Sorted by [key] *)
Definition sorted {A} (key : A -> T) (d : bool) (l : list A) : Prop :=
  forall i j x y, i <= j -> nth_error l i = Some x -> nth_error l j = Some y -> before d (key x) (key y).
(** The first [k] come before all the others. *)
Definition selected {A} (key : A -> T) (d : bool) (k : nat) (l : list A) : Prop :=
  forall i j x y, i < k <= j -> nth_error l i = Some x -> nth_error l j = Some y -> before d (key x) (key y).
(** The element number [k] is where it would be if [l] were sorted. *)
Definition in_place {A} (key : A -> T) (d : bool) (k : nat) (l : list A) : Prop :=
  forall i j x y, i <= k <= j -> nth_error l i = Some x -> nth_error l j = Some y -> before d (key x) (key y).
(** The first [k] are sorted, too. *)
Definition topped {A} (key : A -> T) (d : bool) (k : nat) (l : list A) : Prop := selected key d k l /\ sorted key d (firstn k l).
(** Positions of [data], in the order of their elements *)
Definition at_positions (data : list T) (l : list nat) (ts : list T) : Prop := Forall2 (fun i x => nth_error data i = Some x) l ts.

(** The contract of the library *)
Record contract (lib : library T V) : Prop := {
  c_qsort : forall d l, Permutation l (qsort lib d l) /\ sorted (fun x => x) d (qsort lib d l);
  c_qselect : forall d k l, k < length l -> exists r, qselect lib d k l = Ret r /\ Permutation l r /\ in_place (fun x => x) d k r;
  c_partial : forall d k l, k <= length l -> exists r, partial_qsort lib d k l = Ret r /\ Permutation l r /\ topped (fun x => x) d k r;
  c_argsort : forall d l, Permutation (seq 0 (length l)) (argsort lib d l) /\
    exists ts, at_positions l (argsort lib d l) ts /\ sorted (fun x => x) d ts;
  c_argselect : forall k l, k < length l -> exists r, argselect lib k l = Ret r /\ Permutation (seq 0 (length l)) r /\
    exists ts, at_positions l r ts /\ in_place (fun x => x) false k ts;
  c_kv_sort : forall d l, Permutation l (keyvalue_qsort lib d l) /\ sorted fst d (keyvalue_qsort lib d l);
  c_kv_partial : forall d k l, k <= length l -> exists r, keyvalue_partial_sort lib d k l = Ret r /\ Permutation l r /\ topped fst d k r;
  c_kv_select : forall d k l, k < length l -> exists r, keyvalue_select lib d k l = Ret r /\ Permutation l r /\ in_place fst d k r }.
End Spec.
