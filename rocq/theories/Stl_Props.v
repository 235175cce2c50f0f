(** Theorems for C59 (methods of std containers called by UDFs). *)
From Coq Require Import List Bool Arith ZArith Lia.
Import ListNotations.
From Verif Require Import Base StringView_Model StringView_Spec StringView_Proofs Stl_Model Stl_Spec Stl_Proofs.
Local Open Scope Z_scope.

(** Numbers and strings are passed to UDFs faithfully. *)
Theorem C59_elements_passed : passable scalar_arg (fun _ => True) /\ forall junk, passable (string_arg junk) short_string.
Proof. exact (conj scalar_passable string_passable). Qed.
Print Assumptions C59_elements_passed.

(** Whatever UDFs call on a vector, in any order: every call answers as it would on the list of the elements.
    Missing: null pointers (below), vectors of more than 2^31 elements (below), get outside the vector (an exception:
    C59_get_outside). *)
Theorem C59_vector_history_partial : forall V A (T : arg_type V A) P, passable T P ->
  forall os l, Forall P l -> Forall (op_value P) os -> in_range (Z.of_nat (length l)) os ->
  Z.of_nat (length l) + Z.of_nat (length os) <= 2 ^ 31 ->
  exists l' rs, vec_run V A T (Some l) os = Ret (Some l', rs) /\ vec_calls l os l' rs.
Proof. exact vec_run_ok. Qed.
Print Assumptions C59_vector_history_partial.

(** Two strings, one of them long: *)
Example C59_example_vector : forall junk,
  let s := [104; 105] in let t := repeat 97 20 in
  let os := [VFind t; VAdd t; VFind t; VContains s; VSet 0 t; VContains s; VSet 7 s; VGet 1; VSize] in
  Forall short_string [s] /\ Forall (op_value short_string) os /\ in_range 1 os /\
  vec_run _ _ (string_arg junk) (Some [s]) os =
    Ret (Some [t; t], [RIndex (-1); RVoid; RIndex 1; RBool true; RVoid; RBool false; RVoid; RElement t; RSize 2]).
Proof.
  intros junk. cbv zeta. assert (A : short_string [104; 105]) by (split; [repeat constructor; lia|reflexivity]).
  assert (B : short_string (repeat 97 20)) by (split; [repeat constructor; lia|reflexivity]).
  split; [constructor; [exact A|constructor]|]. split; [repeat (constructor; cbn [op_value]; auto)|].
  split; [cbn [in_range]; lia|]. reflexivity.
Qed.

Theorem C59_get_outside : forall V A (T : arg_type V A) l i,
  Z.of_nat (length l) <= i -> vec_step V A T (Some l) (VGet i) = Err.
Proof. exact get_outside. Qed.
Print Assumptions C59_get_outside.

(** find answers with an int: an element first found at position 2^31 or later is not contained. *)
Theorem C59_find_far_refuted :
  (forall V A (T : arg_type V A) P, passable T P -> forall l v i, Forall P l -> P v -> first_at l v i -> 2 ^ 31 <= i < 2 ^ 32 ->
     vec_step V A T (Some l) (VFind v) = Ret (Some l, RIndex (i - 2 ^ 32)) /\
     vec_step V A T (Some l) (VContains v) = Ret (Some l, RBool false)) /\
  exists (l : list Z) v i, first_at l v i /\ 2 ^ 31 <= i < 2 ^ 32.
Proof. exact (conj find_far far_exists). Qed.
Print Assumptions C59_find_far_refuted.

(** A null vector is empty for find, contains and size, an exception for get and set, and not checked by add. *)
Theorem C59_null_vector_refuted : forall V A (T : arg_type V A) P, passable T P -> forall v i, P v ->
  vec_step V A T None (VFind v) = Ret (None, RIndex (-1)) /\
  vec_step V A T None (VContains v) = Ret (None, RBool false) /\
  vec_step V A T None VSize = Ret (None, RSize 0) /\
  vec_step V A T None (VGet i) = Err /\ vec_step V A T None (VSet i v) = Err /\
  vec_step V A T None (VAdd v) = UB.
Proof. exact null_ok. Qed.
Print Assumptions C59_null_vector_refuted.

(** Objects are looked for by address: an object that is equal to an element, but is not the element, is never found. *)
Theorem C59_find_object_refuted : forall V (v : object_vector V) p, 0 < stride v ->
  p < base v \/ base v + stride v * Z.of_nat (length (objects v)) <= p -> objects_find v p = Ret (-1).
Proof. exact @objects_find_outside. Qed.
Print Assumptions C59_find_object_refuted.
Example C59_example_object : objects_find (Objects 1000 16 [7; 8]) 1016 = Ret 1 /\ objects_find (Objects 1000 16 [7; 8]) 2000 = Ret (-1).
Proof. split; reflexivity. Qed.

(** Whatever UDFs call on a map, in any order: contains and get go by the first insertion of the key, insert tells whether
    it was the first, size counts the different keys. A missing key gives the zero value, as if it had been inserted. *)
Theorem C59_map_history : forall K KA V VA (key_eqb : K -> K -> bool), (forall a b, key_eqb a b = true <-> a = b) ->
  forall (TK : arg_type K KA) (TV : arg_type V VA) P Q, passable TK P -> passable TV Q ->
  forall dflt, (exists b, no_value TV = Ret b /\ from TV b = Ret dflt) ->
  forall os, Forall (map_op_value P Q) os ->
  exists m', map_run K KA V VA key_eqb TK TV (Some []) os = Ret (Some m', map_answers K V key_eqb dflt [] os).
Proof. exact map_history. Qed.
Print Assumptions C59_map_history.

(** A null map is empty and stays so: contains and insert answer false, get is an exception. *)
Theorem C59_null_map : forall K KA V VA (key_eqb : K -> K -> bool) (TK : arg_type K KA) (TV : arg_type V VA) P Q, passable TK P -> passable TV Q ->
  forall k v, P k -> Q v ->
  map_step K KA V VA key_eqb TK TV None (MContains k) = Ret (None, RBool false) /\
  map_step K KA V VA key_eqb TK TV None (MInsert k v) = Ret (None, RBool false) /\
  map_step K KA V VA key_eqb TK TV None MSize = Ret (None, RSize 0) /\
  map_step K KA V VA key_eqb TK TV None (MGet k) = Err.
Proof. exact null_map. Qed.
Print Assumptions C59_null_map.
Example C59_example_null_map : map_run _ _ _ _ Z.eqb scalar_arg scalar_arg None [MInsert 1 2; MContains 1; MSize] = Ret (None, [RBool false; RBool false; RSize 0]).
Proof. reflexivity. Qed.

(** The zero values of numbers and strings. *)
Theorem C59_missing_values : (exists b, no_value scalar_arg = Ret b /\ from scalar_arg b = Ret 0) /\
  forall junk, exists b, no_value (string_arg junk) = Ret b /\ from (string_arg junk) b = Ret [].
Proof. exact (conj scalar_default string_default). Qed.
Print Assumptions C59_missing_values.

(** Sets. *)
Theorem C59_set_history : forall K KA (key_eqb : K -> K -> bool), (forall a b, key_eqb a b = true <-> a = b) ->
  forall (TK : arg_type K KA) P, passable TK P -> forall os, Forall (map_op_value P (fun _ => True)) os ->
  exists m', map_run K KA unit unit key_eqb TK unit_arg (Some []) os = Ret (Some m', map_answers K unit key_eqb tt [] os).
Proof. exact set_history. Qed.
Print Assumptions C59_set_history.

Example C59_example_map : forall junk,
  map_run _ _ _ _ Z.eqb scalar_arg (string_arg junk) (Some [])
    [MGet 1; MInsert 1 [65]; MInsert 1 [66]; MGet 1; MInsert 2 [67]; MContains 2; MContains 3; MSize] =
  Ret (Some [(2, [67]); (1, [65])],
       [RElement []; RBool true; RBool false; RElement [65]; RBool true; RBool true; RBool false; RSize 2]).
Proof. reflexivity. Qed.
