(** Specification of C77, and the contract of Highway's Max and Min. *)
From Coq Require Import List Bool Arith ZArith Reals.
Import ListNotations.
From Flocq Require Import Core BinarySingleNaN.
From Verif Require Import Base Lexer_Model Op_Model Number_Model MathFn_Model.

(** [out'] is [out] with the first 64 elements replaced: element [i] satisfies [P i]. *)
Definition unit_replaced {A} (out out' : list A) (P : nat -> A -> Prop) : Prop :=
  length out' = length out
  /\ (forall i x, i < 64 -> nth_error out' i = Some x -> P i x)
  /\ (forall i, 64 <= i -> nth_error out' i = nth_error out i).

Section Floats.
Variables prec emax : Z.
Context (prec_gt_0_ : Prec_gt_0 prec) (prec_lt_emax_ : Prec_lt_emax prec emax).
Notation F := (binary_float prec emax).
Definition value (x : F) : R := B2R x.
Definition finite (x : F) : Prop := is_finite x = true.
Definition number (x : F) : Prop := is_nan x = false.
(** The same number: equal, or both zeros *)
Definition same_number (x y : F) : Prop := Bcompare x y = Some Eq.
Definition less (x y : F) : Prop := Bcompare x y = Some Lt.

(** The two operands in some order, the larger first; for a NaN, anything *)
Definition maxes (vmax : F -> F -> F) : Prop :=
  forall a b, number a -> number b -> (vmax a b = a \/ vmax a b = b) /\ ~ less (vmax a b) a /\ ~ less (vmax a b) b.
Definition mins (vmin : F -> F -> F) : Prop :=
  forall a b, number a -> number b -> (vmin a b = a \/ vmin a b = b) /\ ~ less a (vmin a b) /\ ~ less b (vmin a b).
(** x86 (maxps, minps): the second operand if one of them is NaN *)
Definition second_if_nan (f : F -> F -> F) : Prop := forall a b, ~ number a \/ ~ number b -> f a b = b.

(** Halfway between [k] and [k + 1], up to the sign *)
Definition halfway (x : F) (k : Z) : Prop := (0 <= k)%Z /\ Rabs (value x) = (IZR k + / 2)%R.
(** [r] is the integer nearest to [x]; of two, the one away from zero *)
Definition nearest_away (x r : F) : Prop :=
  exists n : Z, value r = IZR n /\ (Rabs (value x - IZR n) <= / 2)%R
    /\ (Rabs (value x - IZR n) = / 2 -> Rabs (value x) < Rabs (IZR n))%R.
(** The product has a value of the format. *)
Definition exact_product (a b : F) : Prop :=
  finite a /\ finite b /\ finite (Bmult mode_NE a b) /\ value (Bmult mode_NE a b) = (value a * value b)%R.
(** What fma, fms, fnma and fnms compute before rounding *)
Definition fma_value (op : optok) (a b c : F) : R :=
  match op with
  | OP_FMA => value a * value b + value c
  | OP_FMS => value a * value b - value c
  | OP_FNMA => - (value a * value b) + value c
  | _ => - (value a * value b) - value c
  end%R.
(** A real number rounded to the format, to nearest even *)
Definition rounded (r : R) : R := round radix2 (FLT_exp (3 - emax - prec) prec) ZnearestE r.
(** Below the overflow threshold *)
Definition fits (r : R) : Prop := (Rabs r < bpow radix2 emax)%R.
End Floats.

(** The functions modelled *)
Definition modelled : list optok :=
  [OP_FLOOR; OP_CEIL; OP_ROUND; OP_RINT; OP_TRUNC; OP_SQRT; OP_ABS; OP_ABS_DIFF; OP_MAX; OP_MIN; OP_CLAMP; OP_FMA; OP_FMS; OP_FNMA; OP_FNMS].
Definition fma_family : list optok := [OP_FMA; OP_FMS; OP_FNMA; OP_FNMS].
Definition fma_int_value (op : optok) (a b c : Z) : Z :=
  match op with OP_FMA => a * b + c | OP_FMS => a * b - c | OP_FNMA => - (a * b) + c | _ => - (a * b) - c end%Z.
(** Accepted for scalars; accepted for vectors, in a source with this call only *)
Definition scalars_accepted (op : optok) (n : numty) : Prop := scalar_choice op n <> Refused.
Definition vectors_accepted (op : optok) (n : numty) : Prop := compile_calls [Call op n true] <> None.
