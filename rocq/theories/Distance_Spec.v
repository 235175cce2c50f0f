(** Specification of C73, and the contract of Highway's reductions. *)
From Coq Require Import List Bool Arith ZArith Reals Permutation.
Import ListNotations.
From Flocq Require Import Core BinarySingleNaN.
From Verif Require Import Base Distance_Model.

Section Spec.
Variables prec emax : Z.
Context (prec_gt_0_ : Prec_gt_0 prec) (prec_lt_emax_ : Prec_lt_emax prec emax).
Notation F := (binary_float prec emax).
Notation fma := (fma prec emax prec_gt_0_ prec_lt_emax_).
Notation add := (add prec emax prec_gt_0_ prec_lt_emax_).
Notation mul := (mul prec emax prec_gt_0_ prec_lt_emax_).

(** [summed d l x]: [x] is a sum of the numbers [l] by floating-point additions in some order, none behind more than [d] others. *)
Inductive summed : nat -> list F -> F -> Prop :=
| s_one d x : summed d [x] x
| s_add d l l' x y : summed d l x -> summed d l' y -> summed (S d) (l ++ l') (add x y)
| s_perm d l l' x : Permutation l l' -> summed d l x -> summed d l' x.
(** [dotted d l x]: the same for the products of pairs, by multiplications, additions and fused multiply-adds. *)
Inductive dotted : nat -> list (F * F) -> F -> Prop :=
| d_zero d : dotted d [] (zero prec emax)
| d_fma d l x y z : dotted d l z -> dotted (S d) ((x, y) :: l) (fma x y z)
| d_mul d x y : dotted (S d) [(x, y)] (mul x y)
| d_add d l l' x y : dotted d l x -> dotted d l' y -> dotted (S d) (l ++ l') (add x y)
| d_perm d l l' x : Permutation l l' -> dotted d l x -> dotted d l' x.

(** Highway's contracts: MulAdd, fused or not; ReduceSum of [lanes] lanes; Dot::Compute of arrays of one size. *)
Definition mul_adds (mul_add : F -> F -> F -> F) : Prop :=
  forall x y z, mul_add x y z = fma x y z \/ mul_add x y z = add (mul x y) z.
Definition reduces (lanes : nat) (reduce_sum : list F -> F) : Prop := forall l, length l = lanes -> summed lanes l (reduce_sum l).
Definition dots (extra : nat) (dot_compute : list F -> list F -> F) : Prop :=
  forall l r, length l = length r -> dotted (length l + extra) (combine l r) (dot_compute l r).

(** The elements *)
Definition elements (v : fvec prec emax) : list F := firstn (size _ _ v) (mem _ _ v).
Definition readable (v : fvec prec emax) : Prop := size _ _ v <= length (mem _ _ v).
Definition value (x : F) : R := B2R x.
Definition finite (x : F) : Prop := is_finite x = true.
(** The number is the integer [n]. *)
Definition is_int (x : F) (n : Z) : Prop := finite x /\ value x = IZR n.
Definition ints (v : fvec prec emax) (l : list Z) : Prop := readable v /\ Forall2 is_int (elements v) l.

Definition zsum (l : list Z) : Z := fold_right Z.add 0%Z l.
Definition zdot (l r : list Z) : Z := zsum (map (fun p => (fst p * snd p)%Z) (combine l r)).
Definition zsq (l r : list Z) : Z := zsum (map (fun p => ((fst p - snd p) * (fst p - snd p))%Z) (combine l r)).
Definition rsum (l : list R) : R := fold_right Rplus 0%R l.
(** Rounding, and its unit *)
Definition rounded (x : R) : R := round radix2 (SpecFloat.fexp prec emax) ZnearestE x.
Definition unit_roundoff : R := bpow radix2 (- prec).
Definition smallest : R := bpow radix2 (3 - emax - prec - 1).

(** What the functions should compute: the products and the squared differences of the elements *)
Local Open Scope R_scope.
Definition products (l r : fvec prec emax) : list R := map (fun p => value (fst p) * value (snd p)) (combine (elements l) (elements r)).
Definition squares (l r : fvec prec emax) : list R :=
  map (fun p => (value (fst p) - value (snd p)) * (value (fst p) - value (snd p))) (combine (elements l) (elements r)).
(** 1 - d / (sqrt l * sqrt r), each operation rounded *)
Definition cosine_value (d l r : Z) : R :=
  rounded (1 - rounded (IZR d / rounded (rounded (R_sqrt.sqrt (IZR l)) * rounded (R_sqrt.sqrt (IZR r))))).
(** What [n] products [ts], each known up to a factor [g0], can come to after [d] roundings *)
Definition bound (d : nat) (g0 : R) (ts : list R) (n : nat) : R := (1 + unit_roundoff) ^ d * (g0 * rsum (map Rabs ts) + INR n * smallest).
(** Roundings behind one another in a sum of [n] products in [lanes] columns *)
Definition depth (lanes n : nat) : nat := (lanes + 2 * (n / lanes + 1))%nat.
End Spec.
