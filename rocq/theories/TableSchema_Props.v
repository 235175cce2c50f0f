(** C61: the columns of a table schema. *)
From Coq Require Import Ascii String List Bool Arith ZArith.
Import ListNotations.
From Verif Require Import Base TableSchema_Model TableSchema_Spec TableSchema_Proofs.

(** The filter is the documented one. *)
Theorem C61_filter : forall o name, IsAllowed o name = true <-> visible (include_fields o) (exclude_fields o) name.
Proof. exact allowed_visible. Qed.
Print Assumptions C61_filter.

(** A successful AddColumns adds a column for each visible field with a column type, in order, and nothing else. *)
Theorem C61_added : forall o fs s s',
  AddColumns o fs s = (s', true) ->
  columns s' = columns s ++ columns_of_type (include_fields o) (exclude_fields o) (prefix o) (made s) fs /\
  rows s' = rows s ++ [made s] /\ made s' = S (made s).
Proof. exact AddColumns_true. Qed.
Print Assumptions C61_added.

(** It succeeds if names stay different, there is a column to add, and no visible field is without column type
    (or such fields are to be ignored). *)
Theorem C61_succeeds : forall o fs s,
  let new := columns_of_type (include_fields o) (exclude_fields o) (prefix o) (made s) fs in
  NoDup (map c_name (columns s ++ new)) -> new <> [] ->
  (forall f, In f fs -> f_type f = None -> visible (include_fields o) (exclude_fields o) (f_name f) -> ignore_unsupported o = true) ->
  exists s', AddColumns o fs s = (s', true).
Proof. exact AddColumns_succeeds. Qed.
Print Assumptions C61_succeeds.

(** After any calls, failed ones included, no two columns have the same name. *)
Theorem C61_names_differ : forall l s oks, adds l new_schema = (s, oks) -> NoDup (map c_name (columns s)).
Proof. exact (fun l s oks E => adds_nodup l new_schema s oks (NoDup_nil _) E). Qed.
Print Assumptions C61_names_differ.

(** If all calls succeeded, every column has a row schema.  Full statement: also after failed calls;
    [C61_failed_refuted]. *)
Theorem C61_sound_partial : forall l s oks, adds l new_schema = (s, oks) -> Forall (fun ok => ok = true) oks -> sound s.
Proof. exact (fun l s oks => adds_sound l new_schema s oks (fun c (H : In c []) => match H with end)). Qed.
Print Assumptions C61_sound_partial.

(** A call that fails at the second field has added a column for the first, and it refers to a freed row schema. *)
Theorem C61_failed_refuted : forall l s oks o f f' rest ty,
  adds l new_schema = (s, oks) -> f_type f = Some ty -> visible (include_fields o) (exclude_fields o) (f_name f) ->
  ~ In (prefix o ++ f_name f)%string (map c_name (columns s)) ->
  f_type f' = None -> visible (include_fields o) (exclude_fields o) (f_name f') -> ignore_unsupported o = false ->
  exists s', AddColumns o (f :: f' :: rest) s = (s', false) /\
    columns s' = columns s ++ [mk_column (prefix o ++ f_name f) ty (made s) 0] /\ ~ sound s'.
Proof. exact failed_after. Qed.
Print Assumptions C61_failed_refuted.

Local Open Scope string_scope.
Definition id_field := mk_field "id" (Some 4).
Definition map_field := mk_field "map" None.
Definition score_field := mk_field "score" (Some 8).
Example C61_example :
  let o := mk_options [] ["map"] "u_" false in
  let o2 := mk_options ["score"; "map"] ["score"] "" true in
  let (s, oks) := adds [(o, [id_field; map_field; score_field]); (o2, [id_field; map_field; score_field])] new_schema in
  oks = [true; true] /\ map c_name (columns s) = ["u_id"; "u_score"; "score"] /\ map c_field (columns s) = [0; 2; 2] /\ map c_row (columns s) = [0; 0; 1].
Proof. vm_compute. repeat split. Qed.
Example C61_example_failed :
  exists s, AddColumns (mk_options [] [] "" false) [id_field; map_field; score_field] new_schema = (s, false) /\ columns s = [mk_column "id" 4 0 0] /\ rows s = [].
Proof. eexists. vm_compute. repeat split. Qed.
