(** Model of the reductions of floating-point vectors: rapidudf/functions/simd/vector_misc.cc:49-158 (dot, cosine and l2
    distance, sum) and 489-496 (avg). Numbers are IEEE 754 binary floating-point numbers (Flocq: NaN payloads left out, which
    nothing here looks at), rounding to nearest even, for any format: float is [prec = 24, emax = 128], double is [53, 1024].
    The SIMD width (number of lanes) is a parameter. *)
From Coq Require Import List Bool Arith ZArith.
Import ListNotations.
From Flocq Require Import Core BinarySingleNaN.
From Verif Require Import Base.

Section Model.
Variables prec emax : Z.
Context (prec_gt_0_ : Prec_gt_0 prec) (prec_lt_emax_ : Prec_lt_emax prec emax).
Notation F := (binary_float prec emax).

Definition zero : F := B754_zero false.
Definition add (x y : F) : F := Bplus mode_NE x y.
Definition sub (x y : F) : F := Bminus mode_NE x y.
Definition mul (x y : F) : F := Bmult mode_NE x y.
Definition div (x y : F) : F := Bdiv mode_NE x y.
Definition fma (x y z : F) : F := Bfma mode_NE x y z.
Definition sqrt (x : F) : F := Bsqrt mode_NE x.
(** static_cast<T>(n) of a size *)
Definition of_size (n : nat) : F := binary_normalize prec emax prec_gt_0_ prec_lt_emax_ mode_NE (Z.of_nat n) 0 false.

(** types/vector.h: a vector of [size] elements. [mem] is the memory that may be read from its first element on: at least the
    elements, perhaps more. *)
Record fvec : Type := Fvec { mem : list F; size : nat }.

(** Highway: LoadU reads the lanes, LoadN the first [n] and makes the others zero. *)
Definition loadU (m : list F) (i lanes : nat) : outcome (list F) :=
  if Nat.leb (i + lanes) (length m) then Ret (firstn lanes (skipn i m)) else UB.
Definition loadN (m : list F) (i n lanes : nat) : outcome (list F) :=
  if Nat.leb (i + n) (length m) then Ret (firstn n (skipn i m) ++ repeat zero (lanes - n)) else UB.
(** Lane by lane *)
Definition lanes2 (f : F -> F -> F) (a b : list F) : list F := map (fun p => f (fst p) (snd p)) (combine a b).
Definition lanes3 (f : F -> F -> F -> F) (a b c : list F) : list F := map (fun p => f (fst (fst p)) (snd (fst p)) (snd p)) (combine (combine a b) c).

(** What is left to Highway (contracts: Distance_Spec.v): MulAdd is fused where the processor can; ReduceSum adds the lanes in some order; Dot::Compute adds the
    products of the two arrays, with some number of accumulators. *)
Variable lanes : nat.
Variable mul_add : F -> F -> F -> F.
Variable reduce_sum : list F -> F.
Variable dot_compute : list F -> list F -> F.

(** The loop common to the functions: [for (; idx + N <= count; idx += N)], with a step on N lanes of the two vectors.
    [count - N] is unsigned, but only used when [count >= N]. *)
Fixpoint blocks {S} (step : S -> list F -> list F -> S) (l r : list F) (count : nat) (fuel idx : nat) (s : S) : outcome (nat * S) :=
  if Nat.leb (idx + lanes) count then
    match fuel with
    | O => Hang
    | Datatypes.S fuel =>
        do! lv <- loadU l idx lanes;
        do! rv <- loadU r idx lanes;
        blocks step l r count fuel (idx + lanes) (step s lv rv)
    end
  else Ret (idx, s).
(** All blocks, and the rest with the missing lanes zero *)
Definition all_blocks {S} (step : S -> list F -> list F -> S) (l r : fvec) (s : S) : outcome S :=
  do! p <- blocks step (mem l) (mem r) (size l) (size l) 0 s;
  let (idx, s) := p in
  if Nat.eqb idx (size l) then Ret s
  else
    let remaining := size l - idx in
    do! lv <- loadN (mem l) idx remaining lanes;
    do! rv <- loadN (mem r) idx remaining lanes;
    Ret (step s lv rv).

(** vector_misc.cc:49-67. With fewer elements than lanes, kPaddedToVector tells Highway that whole registers can be read. *)
Definition vector_dot (l r : fvec) : outcome F :=
  if negb (Nat.eqb (size l) (size r)) then Err
  else if Nat.leb lanes (size l) then
    if Nat.leb (size l) (length (mem l)) && Nat.leb (size l) (length (mem r))
    then Ret (dot_compute (firstn (size l) (mem l)) (firstn (size r) (mem r))) else UB
  else if Nat.eqb (size l) 0 then Ret (dot_compute [] [])
  else if Nat.leb lanes (length (mem l)) && Nat.leb lanes (length (mem r))
    then Ret (dot_compute (firstn (size l) (mem l)) (firstn (size r) (mem r))) else UB.

(** vector_misc.cc:69-109 *)
Definition cos_step (s : list F * list F * list F) (lv rv : list F) : list F * list F * list F :=
  let '(dot_v, norm_left_v, norm_right_v) := s in
  (lanes3 mul_add lv rv dot_v, lanes3 mul_add lv lv norm_left_v, lanes3 mul_add rv rv norm_right_v).
Definition zeros : list F := repeat zero lanes.
Definition vector_cosine_distance (l r : fvec) : outcome F :=
  if negb (Nat.eqb (size l) (size r)) then Err
  else
    do! s <- all_blocks cos_step l r (zeros, zeros, zeros);
    let '(dot_v, norm_left_v, norm_right_v) := s in
    let norm_left := sqrt (reduce_sum norm_left_v) in
    let norm_right := sqrt (reduce_sum norm_right_v) in
    let dot := reduce_sum dot_v in
    if Beqb norm_left zero || Beqb norm_right zero then Ret B754_nan
    else
      let cosine_similarity := div dot (mul norm_left norm_right) in
      Ret (sub Bone cosine_similarity).

(** vector_misc.cc:111-138 *)
Definition l2_step (distance_v : list F) (lv rv : list F) : list F :=
  let sub_v := map (fun x => Babs x) (lanes2 sub lv rv) in
  lanes3 mul_add sub_v sub_v distance_v.
Definition vector_l2_distance (l r : fvec) : outcome F :=
  if negb (Nat.eqb (size l) (size r)) then Err
  else do! s <- all_blocks l2_step l r zeros; Ret (sqrt (reduce_sum s)).

(** vector_misc.cc:140-158 *)
Fixpoint sum_rest (m : list F) (n i : nat) (sum : F) : outcome F :=
  match n with
  | O => Ret sum
  | Datatypes.S n => match nth_error m i with Some x => sum_rest m n (i + 1) (add sum x) | None => UB end
  end.
Definition vector_fsum (v : fvec) : outcome F :=
  do! p <- blocks (fun sum lv _ => add sum (reduce_sum lv)) (mem v) (mem v) (size v) (size v) 0 zero;
  let (i, sum) := p in
  sum_rest (mem v) (size v - i) i sum.
(** vector_misc.cc:489-496 *)
Definition vector_favg (v : fvec) : outcome F :=
  if Nat.eqb (size v) 0 then Ret zero
  else do! sum <- vector_fsum v; Ret (div sum (of_size (size v))).
End Model.
