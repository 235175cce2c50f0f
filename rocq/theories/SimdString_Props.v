(** C24, C25: substring search and splitting. *)
From Coq Require Import List ZArith Bool.
Import ListNotations.
From Verif Require Import Base SimdString_Spec SimdString_Model SimdString_Proofs.
Local Open Scope Z_scope.

(** ** C24 *)
(** The first occurrence is found for patterns of one or two bytes, and for longer ones if the text is
    shorter than one SIMD block (N lanes) plus the pattern, for every lane count N.  Missing: longer
    patterns in longer texts, see the refutations. *)
Theorem C24_find_partial : forall N s part,
  1 <= N -> Z.of_nat (length s) < 2 ^ 31 -> 1 <= Z.of_nat (length part) ->
  (N = 1 \/ Z.of_nat (length part) <= 2 \/ Z.of_nat (length s) < N + Z.of_nat (length part) - 1) ->
  exists r, find_string N s part = Ret r /\ first_occurrence part s r.
Proof. exact find_string_ok. Qed.
Print Assumptions C24_find_partial.

(** Whatever the pattern, nothing outside the two strings is read, and a reported position is in range
    and has at least the right first and last byte. *)
Theorem C24_find_in_bounds_partial : forall N s part,
  1 <= N -> Z.of_nat (length s) < 2 ^ 31 -> 2 <= Z.of_nat (length part) ->
  exists r, find_string N s part = Ret r /\
    (r = -1 \/
     (0 <= r <= Z.of_nat (length s) - Z.of_nat (length part) /\
      nth (Z.to_nat r) s 0 = nth 0 part 0 /\
      nth (Z.to_nat (r + Z.of_nat (length part) - 1)) s 0 = nth (Z.to_nat (Z.of_nat (length part) - 1)) part 0)).
Proof. exact find_string_safe. Qed.
Print Assumptions C24_find_in_bounds_partial.

(** On every current SIMD width an occurrence is missed ... *)
Theorem C24_find_misses_refuted : forall N, In N [16; 32; 64] ->
  exists s part, find_string N s part = Ret (-1) /\ occurs_at part s 1.
Proof. exact find_misses. Qed.
Print Assumptions C24_find_misses_refuted.

(** ... and a position is reported where the pattern does not occur, although it occurs nowhere. *)
Theorem C24_find_invents_refuted : forall N, In N [16; 32; 64] ->
  exists s part, find_string N s part = Ret 2 /\ forall i, ~ occurs_at part s i.
Proof. exact find_invents. Qed.
Print Assumptions C24_find_invents_refuted.

(** The empty pattern reads outside the pattern. *)
Theorem C24_find_empty_refuted : forall N s, find_string N s [] = UB.
Proof. exact find_empty. Qed.
Print Assumptions C24_find_empty_refuted.

Theorem C24_find_char : forall N s ch,
  1 <= N -> Z.of_nat (length s) < 2 ^ 31 ->
  exists r, find_char N s ch = Ret r /\ first_occurrence [ch] s r.
Proof. exact find_char_first. Qed.
Print Assumptions C24_find_char.

Example C24_ex : find_string 4 [1; 2; 3; 4; 5; 6; 7; 8; 9] [7; 8] = Ret 6
  /\ find_string 16 [1; 2; 3; 4; 5; 6; 7; 8; 9] [4; 5; 6] = Ret 3
  /\ find_string 4 [1; 2; 3; 4; 5; 6; 7; 8; 9] [2; 3; 4] = Ret (-1)
  /\ find_char 4 [1; 2; 3; 4; 5; 6; 7; 8; 9] 6 = Ret 5.
Proof. repeat split; vm_compute; reflexivity. Qed.

(** ** C25 *)
(** Splitting by a character gives the non-empty pieces between the separators. *)
Theorem C25_split_by_char : forall N s ch,
  1 <= N -> Z.of_nat (length s) + N < 2 ^ 32 ->
  exists fields, splits [ch] s fields /\ split_by_char N s ch = Ret (non_empty fields).
Proof. exact split_by_char_ok. Qed.
Print Assumptions C25_split_by_char.

(** Splitting by a string: separators of one or two bytes, or short texts.  Missing: the rest, where
    the search above is wrong. *)
Theorem C25_split_by_string_partial : forall N s sep,
  1 <= N < 2 ^ 31 -> Z.of_nat (length s) < 2 ^ 31 -> 1 <= Z.of_nat (length sep) ->
  (N = 1 \/ Z.of_nat (length sep) <= 2 \/ Z.of_nat (length s) < N + Z.of_nat (length sep) - 1) ->
  exists fields, splits sep s fields /\ split_by_string N s sep = Ret (non_empty fields).
Proof. exact split_by_string_ok. Qed.
Print Assumptions C25_split_by_string_partial.

(** The pieces are determined by the text and the separator, so "exists fields" above is "the fields". *)
Theorem C25_fields_unique : forall sep s f1 f2, sep <> [] -> splits sep s f1 -> splits sep s f2 -> f1 = f2.
Proof. exact splits_unique. Qed.
Print Assumptions C25_fields_unique.

(** A text is cut where the separator does not occur, for every current SIMD width. *)
Theorem C25_split_loses_text_refuted : forall N, In N [16; 32; 64] ->
  exists s sep, (forall i, ~ occurs_at sep s i) /\ split_by_string N s sep <> Ret [s].
Proof. exact split_invents. Qed.
Print Assumptions C25_split_loses_text_refuted.

Theorem C25_split_by_empty_refuted : forall N s, split_by_string N s [] = UB.
Proof. exact split_empty. Qed.
Print Assumptions C25_split_by_empty_refuted.

Example C25_ex : split_by_char 4 [1; 0; 0; 2; 3; 0; 4; 0] 0 = Ret [[1]; [2; 3]; [4]]
  /\ split_by_string 4 [1; 0; 0; 2; 3; 0; 4; 0; 0] [0; 0] = Ret [[1]; [2; 3; 0; 4]]
  /\ split_by_string 4 [0; 0; 0] [0; 0] = Ret [[0]].
Proof. repeat split; vm_compute; reflexivity. Qed.
