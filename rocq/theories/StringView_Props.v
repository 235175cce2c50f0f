(** C12, C13, C14: StringView comparison and string predicates. *)
From Coq Require Import List ZArith Bool.
Import ListNotations.
From Verif Require Import Base StringView_Spec StringView_Model StringView_Proofs.
Local Open Scope Z_scope.

(** ** C12 *)
(** Two views compare equal iff the byte strings are equal.  Missing: strings of 4 GiB and more. *)
Theorem C12_equality_is_byte_equality_partial : forall j1 j2 s t,
  bytes s -> bytes t -> Z.of_nat (length s) < 2 ^ 32 -> Z.of_nat (length t) < 2 ^ 32 ->
  exists v w b, of_string j1 s = Ret v /\ of_string j2 t = Ret w /\
                sv_eq v w = Ret b /\ (b = true <-> s = t).
Proof. exact eq_props. Qed.
Print Assumptions C12_equality_is_byte_equality_partial.

(** A view gives back the bytes it was made from. *)
Theorem C12_view_denotes_its_bytes_partial : forall junk s, Z.of_nat (length s) < 2 ^ 32 ->
  exists v, of_string junk s = Ret v /\ size_ v = Z.of_nat (length s) /\ get_string_view v = Ret s.
Proof. exact data_props. Qed.
Print Assumptions C12_view_denotes_its_bytes_partial.

(** At 4 GiB the length wraps, and different strings compare equal. *)
Theorem C12_long_strings_refuted : forall j1 j2, exists s t v w, bytes s /\ bytes t /\ s <> t /\
  of_string j1 s = Ret v /\ of_string j2 t = Ret w /\ sv_eq v w = Ret true.
Proof. exact eq_long_refuted. Qed.
Print Assumptions C12_long_strings_refuted.

(** ** C13 *)
(** compare() has the sign of unsigned lexicographic order.  Missing: strings of 2 GiB and more. *)
Theorem C13_compare_is_lexicographic_partial : forall j1 j2 s t,
  bytes s -> bytes t -> Z.of_nat (length s) < 2 ^ 31 -> Z.of_nat (length t) < 2 ^ 31 ->
  exists v w r, of_string j1 s = Ret v /\ of_string j2 t = Ret w /\
                sv_compare v w = Ret r /\ (r ?= 0) = lex s t.
Proof. exact compare_props. Qed.
Print Assumptions C13_compare_is_lexicographic_partial.

(** The comparison operators of UDFs decide that order. *)
Theorem C13_udf_comparisons_agree_partial : forall op j1 j2 s t,
  bytes s -> bytes t -> Z.of_nat (length s) < 2 ^ 31 -> Z.of_nat (length t) < 2 ^ 31 ->
  exists v w, of_string j1 s = Ret v /\ of_string j2 t = Ret w /\
    compare_string_view op v w = Ret
      match op, lex s t with
      | OpEqual, Eq | OpLessEqual, Eq | OpGreaterEqual, Eq => true
      | OpNotEqual, Lt | OpLess, Lt | OpLessEqual, Lt => true
      | OpNotEqual, Gt | OpGreater, Gt | OpGreaterEqual, Gt => true
      | _, _ => false
      end.
Proof. exact relational_props. Qed.
Print Assumptions C13_udf_comparisons_agree_partial.

(** [lex] is a strict total order whose equality is equality of byte strings. *)
Theorem C13_lexicographic_order_is_total : forall a b c,
  (lex a b = Eq <-> a = b) /\ lex b a = CompOpp (lex a b) /\
  (lex a b = Lt -> lex b c = Lt -> lex a c = Lt).
Proof. exact (fun a b c => conj (lex_eq a b) (conj (lex_antisym a b) (lex_trans a b c))). Qed.
Print Assumptions C13_lexicographic_order_is_total.

(** From 2 GiB on compare() can call different strings equal. *)
Theorem C13_long_strings_refuted : forall j1 j2, exists s t v w, bytes s /\ bytes t /\ s <> t /\
  Z.of_nat (length s) < 2 ^ 32 /\ Z.of_nat (length t) < 2 ^ 32 /\
  of_string j1 s = Ret v /\ of_string j2 t = Ret w /\ sv_compare v w = Ret 0.
Proof. exact cmp_long_refuted. Qed.
Print Assumptions C13_long_strings_refuted.

(** ** C14 *)
Theorem C14_contains_partial : forall j1 j2 s p,
  Z.of_nat (length s) < 2 ^ 32 -> Z.of_nat (length p) < 2 ^ 32 ->
  exists v w b, of_string j1 s = Ret v /\ of_string j2 p = Ret w /\
                contains v w = Ret b /\ (b = true <-> is_substring p s).
Proof. exact contains_props. Qed.
Print Assumptions C14_contains_partial.

Theorem C14_starts_with_partial : forall j1 j2 s p,
  Z.of_nat (length s) < 2 ^ 32 -> Z.of_nat (length p) < 2 ^ 32 ->
  exists v w b, of_string j1 s = Ret v /\ of_string j2 p = Ret w /\
                starts_with v w = Ret b /\ (b = true <-> is_prefix p s).
Proof. exact starts_props. Qed.
Print Assumptions C14_starts_with_partial.

Theorem C14_ends_with_partial : forall j1 j2 s p,
  Z.of_nat (length s) < 2 ^ 32 -> Z.of_nat (length p) < 2 ^ 32 ->
  exists v w b, of_string j1 s = Ret v /\ of_string j2 p = Ret w /\
                ends_with v w = Ret b /\ (b = true <-> is_suffix p s).
Proof. exact ends_props. Qed.
Print Assumptions C14_ends_with_partial.

Theorem C14_contains_ignore_case_partial : forall j1 j2 s p,
  Z.of_nat (length s) < 2 ^ 32 -> Z.of_nat (length p) < 2 ^ 32 ->
  exists v w b, of_string j1 s = Ret v /\ of_string j2 p = Ret w /\
                contains_ignore_case v w = Ret b /\ (b = true <-> is_substring (lowers p) (lowers s)).
Proof. exact contains_ic_props. Qed.
Print Assumptions C14_contains_ignore_case_partial.

(** starts_with_ignore_case and ends_with_ignore_case are case-sensitive: they decide exact prefix and
    suffix, and so miss every occurrence that differs in case. *)
Theorem C14_starts_with_ignore_case_refuted :
  (forall j1 j2 s p, Z.of_nat (length s) < 2 ^ 32 -> Z.of_nat (length p) < 2 ^ 32 ->
     exists v w b, of_string j1 s = Ret v /\ of_string j2 p = Ret w /\
                   starts_with_ignore_case v w = Ret b /\ (b = true <-> is_prefix p s)) /\
  (exists s p, is_prefix (lowers p) (lowers s) /\ ~ is_prefix p s).
Proof. exact starts_ic_refuted. Qed.
Print Assumptions C14_starts_with_ignore_case_refuted.

Theorem C14_ends_with_ignore_case_refuted :
  (forall j1 j2 s p, Z.of_nat (length s) < 2 ^ 32 -> Z.of_nat (length p) < 2 ^ 32 ->
     exists v w b, of_string j1 s = Ret v /\ of_string j2 p = Ret w /\
                   ends_with_ignore_case v w = Ret b /\ (b = true <-> is_suffix p s)) /\
  (exists s p, is_suffix (lowers p) (lowers s) /\ ~ is_suffix p s).
Proof. exact ends_ic_refuted. Qed.
Print Assumptions C14_ends_with_ignore_case_refuted.

(** A concrete case: two out-of-line strings that differ only in their last byte. *)
Example C13_example :
  let s := [104;101;108;108;111;32;119;111;114;108;100;33;33] in
  let t := [104;101;108;108;111;32;119;111;114;108;100;33;63] in
  bytes s /\ bytes t /\ Z.of_nat (length s) < 2 ^ 31 /\ Z.of_nat (length t) < 2 ^ 31 /\ lex s t = Lt.
Proof. repeat split; repeat constructor; discriminate. Qed.
