(** Model of the sorting functions of vectors: rapidudf/functions/simd/vector_sort.cc:29-123. x86simdsort does the sorting: its
    functions are parameters here, their documented behaviour is stated in VectorSort_Spec.v. *)
From Coq Require Import List Bool Arith ZArith.
Import ListNotations.
From Verif Require Import Base.

(** What is called of x86simdsort.h, for elements [T] (and values [V] beside the keys). [bool]: descending. A function with a
    parameter k may do anything if k is too large for the array. hasnan (ctx.HasNan()) is not modelled: no NaNs. *)
Record library (T V : Type) : Type := Library {
  qsort : bool -> list T -> list T;
  qselect : bool -> nat -> list T -> outcome (list T);
  partial_qsort : bool -> nat -> list T -> outcome (list T);
  argsort : bool -> list T -> list nat;
  argselect : nat -> list T -> outcome (list nat);
  keyvalue_qsort : bool -> list (T * V) -> list (T * V);
  keyvalue_partial_sort : bool -> nat -> list (T * V) -> outcome (list (T * V));
  keyvalue_select : bool -> nat -> list (T * V) -> outcome (list (T * V)) }.
Arguments qsort {T V}. Arguments qselect {T V}. Arguments partial_qsort {T V}. Arguments argsort {T V}. Arguments argselect {T V}.
Arguments keyvalue_qsort {T V}. Arguments keyvalue_partial_sort {T V}. Arguments keyvalue_select {T V}. Arguments Library {T V}.

(** types/vector.h: a vector of numbers; the functions get a view of the caller's memory. *)
Record nvec (T : Type) : Type := Nvec { writable : bool; items : list T }.
Arguments Nvec {T}. Arguments writable {T}. Arguments items {T}.

Section Sort.
Context {T V : Type}.
Variable lib : library T V.

(** vector_sort.cc:29-35. The outcome: the memory of the vector afterwards. [Err]: an exception, thrown before the call. *)
Definition vector_sort (x : nvec T) (descending : bool) : outcome (list T) :=
  if negb (writable x) then Err else Ret (qsort lib descending (items x)).
(** vector_sort.cc:36-42 *)
Definition vector_select (x : nvec T) (k : nat) (descending : bool) : outcome (list T) :=
  if negb (writable x) then Err else qselect lib descending k (items x).
(** vector_sort.cc:43-49 *)
Definition vector_topk (x : nvec T) (k : nat) (descending : bool) : outcome (list T) :=
  if negb (writable x) then Err else partial_qsort lib descending k (items x).
(** vector_sort.cc:50-57: the result is a new vector (of uint64_t), owned by the context. *)
Definition vector_argsort (x : nvec T) (descending : bool) : outcome (list nat) := Ret (argsort lib descending (items x)).
(** vector_sort.cc:58-84 *)
Definition vector_argselect (x : nvec T) (k : nat) (descending : bool) : outcome (list nat) :=
  if descending then
    let n := length (items x) in
    if Nat.leb n k then vector_argsort x descending
    else
      do! idxs <- argselect lib (n - k) (items x);
      Ret (skipn (n - k) idxs ++ firstn (n - k) idxs)
  else argselect lib k (items x).

(** vector_sort.cc:86-100. The library works on both arrays; here on the pairs. *)
Definition key_value {A} (keys : nvec T) (values : nvec V) (f : list (T * V) -> outcome A) : outcome A :=
  if negb (writable keys) || negb (writable values) then Err
  else if negb (Nat.eqb (length (items keys)) (length (items values))) then Err
  else f (combine (items keys) (items values)).
Definition arrays (l : outcome (list (T * V))) : outcome (list T * list V) := do! l <- l; Ret (map fst l, map snd l).
Definition vector_sort_key_value (keys : nvec T) (values : nvec V) (descending : bool) : outcome (list T * list V) :=
  arrays (key_value keys values (fun l => Ret (keyvalue_qsort lib descending l))).
(** vector_sort.cc:101-111 *)
Definition vector_topk_key_value (keys : nvec T) (values : nvec V) (k : nat) (descending : bool) : outcome (list T * list V) :=
  arrays (key_value keys values (keyvalue_partial_sort lib descending k)).
(** vector_sort.cc:112-123 *)
Definition vector_select_key_value (keys : nvec T) (values : nvec V) (k : nat) (descending : bool) : outcome (list T * list V) :=
  arrays (key_value keys values (keyvalue_select lib descending k)).
End Sort.
