(** C73: sums, dot products and distances of floating-point vectors, in every format [prec, emax] (float: 24, 128; double: 53, 1024), for
    every number of lanes, every order in which Highway adds, fused or not. [mul_adds], [reduces] and [dots] are Highway's contracts
    (Distance_Spec.v); C73_contracts shows that they can be met. *)
From Coq Require Import List Bool Arith ZArith Reals.
Import ListNotations.
From Flocq Require Import Core BinarySingleNaN.
From Verif Require Import Base Distance_Model Distance_Spec DistanceMain_Proofs DistanceExamples_Proofs.

(** The contracts can be met: sequential additions, fused or not. *)
Theorem C73_contracts : forall prec emax (P : Prec_gt_0 prec) (E : Prec_lt_emax prec emax) lanes, 0 < lanes ->
  (exists mul_add, mul_adds prec emax P E mul_add) /\ (exists reduce_sum, reduces prec emax P E lanes reduce_sum) /\ (exists dot_compute, dots prec emax P E 0 dot_compute).
Proof.
  exact (fun prec emax P E lanes H => conj (ex_intro _ _ (fma_adds prec emax P E)) (conj (ex_intro _ _ (seq_reduces prec emax P E lanes H)) (ex_intro _ _ (seq_dots prec emax P E)))).
Qed.
Print Assumptions C73_contracts.

(** Vectors of different sizes are refused. *)
Theorem C73_size_mismatch : forall prec emax (P : Prec_gt_0 prec) (E : Prec_lt_emax prec emax) lanes mul_add reduce_sum dot_compute l r, size prec emax l <> size prec emax r ->
  vector_dot prec emax lanes dot_compute l r = Err
  /\ vector_cosine_distance prec emax P E lanes mul_add reduce_sum l r = Err
  /\ vector_l2_distance prec emax P E lanes mul_add reduce_sum l r = Err.
Proof. exact (fun prec emax P E lanes mul_add reduce_sum dot_compute => mismatch prec emax P E lanes mul_add reduce_sum dot_compute). Qed.
Print Assumptions C73_size_mismatch.

(** sum of elements that are integers: exact, whatever the lanes, as long as the magnitudes add up to at most 2^prec. *)
Theorem C73_sum_exact : forall prec emax (P : Prec_gt_0 prec) (E : Prec_lt_emax prec emax) lanes reduce_sum, 0 < lanes -> reduces prec emax P E lanes reduce_sum ->
  forall v a, ints prec emax v a -> (zsum (map Z.abs a) <= 2 ^ prec)%Z ->
  exists x, vector_fsum prec emax P E lanes reduce_sum v = Ret x /\ is_int prec emax x (zsum a).
Proof. exact (fun prec emax P E lanes reduce_sum H RS => sum_exact prec emax P E lanes H reduce_sum RS). Qed.
Print Assumptions C73_sum_exact.

(** avg of integers: the quotient, rounded once; zero for an empty vector. *)
Theorem C73_avg_exact : forall prec emax (P : Prec_gt_0 prec) (E : Prec_lt_emax prec emax) lanes reduce_sum, 0 < lanes -> reduces prec emax P E lanes reduce_sum ->
  forall v a, ints prec emax v a -> (zsum (map Z.abs a) <= 2 ^ prec)%Z -> (Z.of_nat (size prec emax v) <= 2 ^ prec)%Z -> size prec emax v <> 0 ->
  exists x, vector_favg prec emax P E lanes reduce_sum v = Ret x /\ finite prec emax x
    /\ value prec emax x = rounded prec emax (IZR (zsum a) / IZR (Z.of_nat (size prec emax v))).
Proof. exact (fun prec emax P E lanes reduce_sum H RS => avg_exact prec emax P E lanes H reduce_sum RS). Qed.
Print Assumptions C73_avg_exact.

Theorem C73_avg_empty : forall prec emax (P : Prec_gt_0 prec) (E : Prec_lt_emax prec emax) lanes reduce_sum v, size prec emax v = 0 -> vector_favg prec emax P E lanes reduce_sum v = Ret (zero prec emax).
Proof. exact (fun prec emax P E lanes reduce_sum => avg_empty prec emax P E lanes reduce_sum). Qed.
Print Assumptions C73_avg_empty.

(** dot of integers: exact. The hypothesis on the memory excludes vectors shorter than the lanes that have nothing behind them (C73_dot_short_refuted). *)
Theorem C73_dot_exact_partial : forall prec emax (P : Prec_gt_0 prec) (E : Prec_lt_emax prec emax) lanes extra dot_compute, 0 < lanes -> dots prec emax P E extra dot_compute ->
  forall l r a b, ints prec emax l a -> ints prec emax r b -> size prec emax l = size prec emax r ->
  lanes <= size prec emax l \/ lanes <= length (mem prec emax l) /\ lanes <= length (mem prec emax r) ->
  (zsum (map (fun p => Z.abs (fst p * snd p)) (combine a b)) <= 2 ^ prec)%Z ->
  exists x, vector_dot prec emax lanes dot_compute l r = Ret x /\ is_int prec emax x (zdot a b).
Proof. exact (fun prec emax P E lanes extra dot_compute H DC => dot_exact prec emax P E lanes H dot_compute extra DC). Qed.
Print Assumptions C73_dot_exact_partial.

(** The full claim (a dot product for every two vectors of one size) does not hold: with fewer elements than lanes, memory behind the elements is read. *)
Theorem C73_dot_short_refuted : forall prec emax lanes dot_compute, 0 < lanes -> forall l r, size prec emax l = size prec emax r -> 0 < size prec emax l < lanes -> length (mem prec emax l) = size prec emax l ->
  vector_dot prec emax lanes dot_compute l r = UB.
Proof. exact (fun prec emax lanes dot_compute H => dot_short prec emax lanes H dot_compute). Qed.
Print Assumptions C73_dot_short_refuted.

(** l2_distance of integers: the square root of the exact sum of squares, rounded once. *)
Theorem C73_l2_exact : forall prec emax (P : Prec_gt_0 prec) (E : Prec_lt_emax prec emax) lanes mul_add reduce_sum, 0 < lanes -> mul_adds prec emax P E mul_add -> reduces prec emax P E lanes reduce_sum ->
  forall l r a b, ints prec emax l a -> ints prec emax r b -> size prec emax l = size prec emax r -> (zsq a b <= 2 ^ prec)%Z ->
  exists x, vector_l2_distance prec emax P E lanes mul_add reduce_sum l r = Ret x /\ finite prec emax x
    /\ value prec emax x = rounded prec emax (R_sqrt.sqrt (IZR (zsq a b))).
Proof. exact (fun prec emax P E lanes mul_add reduce_sum H MA RS => l2_exact prec emax P E lanes H mul_add MA reduce_sum RS). Qed.
Print Assumptions C73_l2_exact.

(** cosine_distance of integers: NaN if one vector is zero, else 1 - dot / (norm * norm) of the exact sums. *)
Theorem C73_cosine_exact : forall prec emax (P : Prec_gt_0 prec) (E : Prec_lt_emax prec emax) lanes mul_add reduce_sum, 0 < lanes -> mul_adds prec emax P E mul_add -> reduces prec emax P E lanes reduce_sum ->
  forall l r a b, (2 * prec < emax)%Z -> ints prec emax l a -> ints prec emax r b -> size prec emax l = size prec emax r ->
  (zsum (map (fun p => Z.abs (fst p * snd p)) (combine a b)) <= 2 ^ prec)%Z -> (zdot a a <= 2 ^ prec)%Z -> (zdot b b <= 2 ^ prec)%Z ->
  exists x, vector_cosine_distance prec emax P E lanes mul_add reduce_sum l r = Ret x
    /\ (zdot a a = 0%Z \/ zdot b b = 0%Z -> x = B754_nan)
    /\ (zdot a a <> 0%Z -> zdot b b <> 0%Z -> finite prec emax x /\ value prec emax x = cosine_value prec emax (zdot a b) (zdot a a) (zdot b b)).
Proof. exact (fun prec emax P E lanes mul_add reduce_sum H MA RS => cosine_exact prec emax P E lanes H mul_add MA reduce_sum RS). Qed.
Print Assumptions C73_cosine_exact.

(** Any finite elements. sum: within the rounding errors of [lanes + n / lanes + n mod lanes] additions behind one another. *)
Theorem C73_sum_error : forall prec emax (P : Prec_gt_0 prec) (E : Prec_lt_emax prec emax) lanes reduce_sum, 0 < lanes -> reduces prec emax P E lanes reduce_sum ->
  forall v, readable prec emax v -> Forall (finite prec emax) (elements prec emax v) ->
  let d := lanes + size prec emax v / lanes + size prec emax v mod lanes in
  let exact := rsum (map (value prec emax) (elements prec emax v)) in
  let magnitude := rsum (map Rabs (map (value prec emax) (elements prec emax v))) in
  ((1 + unit_roundoff prec) ^ d * magnitude < bpow radix2 emax)%R ->
  exists x, vector_fsum prec emax P E lanes reduce_sum v = Ret x /\ finite prec emax x
    /\ (Rabs (value prec emax x - exact) <= ((1 + unit_roundoff prec) ^ d - 1) * magnitude)%R.
Proof. exact (fun prec emax P E lanes reduce_sum H RS => sum_error prec emax P E lanes H reduce_sum RS). Qed.
Print Assumptions C73_sum_error.

(** dot: within the rounding errors (and underflows) of n + [extra] operations behind one another. *)
Theorem C73_dot_error_partial : forall prec emax (P : Prec_gt_0 prec) (E : Prec_lt_emax prec emax) lanes extra dot_compute, 0 < lanes -> dots prec emax P E extra dot_compute ->
  forall l r, readable prec emax l -> readable prec emax r -> size prec emax l = size prec emax r ->
  lanes <= size prec emax l \/ lanes <= length (mem prec emax l) /\ lanes <= length (mem prec emax r) -> Forall (finite prec emax) (elements prec emax l) -> Forall (finite prec emax) (elements prec emax r) ->
  let B := bound prec emax (size prec emax l + extra) 1 (products prec emax l r) (size prec emax l) in
  (B < bpow radix2 emax)%R ->
  exists x, vector_dot prec emax lanes dot_compute l r = Ret x /\ finite prec emax x
    /\ (Rabs (value prec emax x - rsum (products prec emax l r)) <= B - rsum (map Rabs (products prec emax l r)))%R.
Proof. exact (fun prec emax P E lanes extra dot_compute H DC => dot_error prec emax P E lanes H dot_compute extra DC). Qed.
Print Assumptions C73_dot_error_partial.

(** l2_distance: the rounded root of a number within the rounding errors of the sum of squares. *)
Theorem C73_l2_error : forall prec emax (P : Prec_gt_0 prec) (E : Prec_lt_emax prec emax) lanes mul_add reduce_sum, 0 < lanes -> mul_adds prec emax P E mul_add -> reduces prec emax P E lanes reduce_sum ->
  forall l r, readable prec emax l -> readable prec emax r -> size prec emax l = size prec emax r -> Forall (finite prec emax) (elements prec emax l) -> Forall (finite prec emax) (elements prec emax r) ->
  let B := bound prec emax (depth lanes (size prec emax l)) ((1 + unit_roundoff prec) * (1 + unit_roundoff prec)) (squares prec emax l r) (size prec emax l + lanes) in
  (B < bpow radix2 emax)%R ->
  exists x s, vector_l2_distance prec emax P E lanes mul_add reduce_sum l r = Ret x /\ (0 <= s)%R
    /\ (Rabs (s - rsum (squares prec emax l r)) <= B - rsum (map Rabs (squares prec emax l r)))%R
    /\ finite prec emax x /\ value prec emax x = rounded prec emax (R_sqrt.sqrt s).
Proof. exact (fun prec emax P E lanes mul_add reduce_sum H MA RS => l2_error prec emax P E lanes H mul_add MA reduce_sum RS). Qed.
Print Assumptions C73_l2_error.

(** cosine_distance: 1 - dot / (norm * norm) of three sums within their rounding errors. *)
Theorem C73_cosine_error : forall prec emax (P : Prec_gt_0 prec) (E : Prec_lt_emax prec emax) lanes mul_add reduce_sum, 0 < lanes -> mul_adds prec emax P E mul_add -> reduces prec emax P E lanes reduce_sum ->
  forall l r, readable prec emax l -> readable prec emax r -> size prec emax l = size prec emax r -> Forall (finite prec emax) (elements prec emax l) -> Forall (finite prec emax) (elements prec emax r) ->
  let B := fun ts => bound prec emax (depth lanes (size prec emax l)) 1 ts (size prec emax l + lanes) in
  let off := fun x ts => Rabs (value prec emax x - rsum ts) in
  (B (products prec emax l r) < bpow radix2 emax)%R -> (B (products prec emax l l) < bpow radix2 emax)%R -> (B (products prec emax r r) < bpow radix2 emax)%R ->
  exists dot nl nr,
    vector_cosine_distance prec emax P E lanes mul_add reduce_sum l r =
      Ret (if Beqb (Distance_Model.sqrt prec emax P E nl) (zero prec emax) || Beqb (Distance_Model.sqrt prec emax P E nr) (zero prec emax) then B754_nan
           else sub prec emax P E Bone (div prec emax P E dot (mul prec emax P E (Distance_Model.sqrt prec emax P E nl) (Distance_Model.sqrt prec emax P E nr))))
    /\ (finite prec emax dot /\ (off dot (products prec emax l r) <= B (products prec emax l r) - rsum (map Rabs (products prec emax l r)))%R)
    /\ (finite prec emax nl /\ (0 <= value prec emax nl)%R /\ (off nl (products prec emax l l) <= B (products prec emax l l) - rsum (map Rabs (products prec emax l l)))%R)
    /\ (finite prec emax nr /\ (0 <= value prec emax nr)%R /\ (off nr (products prec emax r r) <= B (products prec emax r r) - rsum (map Rabs (products prec emax r r)))%R).
Proof. exact (fun prec emax P E lanes mul_add reduce_sum H MA RS => cosine_error prec emax P E lanes H mul_add MA reduce_sum RS). Qed.
Print Assumptions C73_cosine_error.

(** A NaN among the elements shows in the result. *)
Theorem C73_nan : forall prec emax (P : Prec_gt_0 prec) (E : Prec_lt_emax prec emax) lanes mul_add reduce_sum, 0 < lanes -> mul_adds prec emax P E mul_add -> reduces prec emax P E lanes reduce_sum ->
  (forall v, readable prec emax v -> In B754_nan (elements prec emax v) -> vector_fsum prec emax P E lanes reduce_sum v = Ret B754_nan)
  /\ (forall l r, readable prec emax l -> readable prec emax r -> size prec emax l = size prec emax r -> In B754_nan (elements prec emax l) \/ In B754_nan (elements prec emax r) ->
      vector_l2_distance prec emax P E lanes mul_add reduce_sum l r = Ret B754_nan /\ vector_cosine_distance prec emax P E lanes mul_add reduce_sum l r = Ret B754_nan).
Proof. exact (fun prec emax P E lanes mul_add reduce_sum H MA RS => conj (sum_nan prec emax P E lanes H reduce_sum RS) (fun l r Rl Rr S N => conj (l2_nan prec emax P E lanes H mul_add MA reduce_sum RS l r Rl Rr S N) (cosine_nan prec emax P E lanes H mul_add MA reduce_sum RS l r Rl Rr S N))). Qed.
Print Assumptions C73_nan.

(** Single precision, four lanes, vectors of five elements: the integers 1..5 meet the hypotheses. *)
Example C73_ints : ints 24 128 (vec32 [1; 2; 3; 4; 5]%Z) [1; 2; 3; 4; 5]%Z.
Proof. exact vec32_example. Qed.
Example C73_l2_value : match vector_l2_distance 24 128 P24 E128 4 (fma 24 128 P24 E128) (seq_sum 24 128 P24 E128) (vec32 [1; 2; 3; 4; 5]%Z) (vec32 [1; 2; 0; 0; 5]%Z) with
  Ret x => Beqb x (f32 5) | _ => false end = true.
Proof. vm_compute. reflexivity. Qed.
Example C73_cosine_value : match vector_cosine_distance 24 128 P24 E128 4 (fma 24 128 P24 E128) (seq_sum 24 128 P24 E128) (vec32 [0; 0; 3; 0; 0]%Z) (vec32 [0; 0; 0; 0; 5]%Z) with
  Ret x => Beqb x (f32 1) | _ => false end = true.
Proof. vm_compute. reflexivity. Qed.
Example C73_sum_value : match vector_fsum 24 128 P24 E128 4 (seq_sum 24 128 P24 E128) (vec32 [1; 2; 3; 4; 5; -7]%Z) with Ret x => Beqb x (f32 8) | _ => false end = true.
Proof. vm_compute. reflexivity. Qed.
Example C73_dot_value : match vector_dot 24 128 4 (seq_dot 24 128 P24 E128) (vec32 [1; 2; 3; 4; 5]%Z) (vec32 [2; 2; 2; 2; -1]%Z) with Ret x => Beqb x (f32 15) | _ => false end = true.
Proof. vm_compute. reflexivity. Qed.
