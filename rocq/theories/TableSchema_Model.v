(** Model of rapidudf/table/table_schema.cc: which columns a table schema has. *)
From Coq Require Import Ascii String List Bool Arith ZArith.
Import ListNotations.
From Verif Require Import Base.

(** table_schema.h:36-43.  Simplified: a set of names is a list. *)
Record options := mk_options {
  include_fields : list string; exclude_fields : list string; prefix : string; ignore_unsupported : bool }.
Definition count (l : list string) (name : string) : nat := if existsb (String.eqb name) l then 1 else 0.
(** table_schema.cc:26-34. *)
Definition IsAllowed (o : options) (name : string) : bool :=
  if negb (Nat.eqb (length (include_fields o)) 0) then Nat.eqb (count (include_fields o) name) 1
  else if negb (Nat.eqb (length (exclude_fields o)) 0) then Nat.eqb (count (exclude_fields o) name) 0
  else true.

(** A field of a row type: its name and, if columns can have it, the column type (table_schema.cc:126-206, 232-330,
    337-446; Simplified: types are numbers). *)
Record field := mk_field { f_name : string; f_type : option nat }.
(** column.h:31-41; the row schema is the number of the AddColumns call that made it. *)
Record column := mk_column { c_name : string; c_type : nat; c_row : nat; c_field : nat }.
(** table_schema.h:120-122.  [made]: AddColumns calls so far; [rows]: the row schemas the table schema owns; a row schema
    that is not owned has been freed. *)
Record schema := mk_schema { columns : list column; rows : list nat; made : nat }.
Definition new_schema : schema := mk_schema [] [] 0.

(** table_schema.cc:63-78; DynObjectSchema::Add fails for a name that is in use (C26). *)
Definition AddColumn (name : string) (ty row idx : nat) (s : schema) : option schema :=
  if existsb (fun c => String.eqb (c_name c) name) (columns s) then None
  else Some (mk_schema (columns s ++ [mk_column name ty row idx]) (rows s) (made s)).

Definition column_name (o : options) (name : string) : string := if String.eqb (prefix o) "" then name else (prefix o ++ name)%string.

(** The loops of table_schema.cc:118-212, 228-333, 340-460: the schema, the number of columns added, success. *)
Fixpoint add_fields (o : options) (row idx : nat) (fs : list field) (s : schema) (valid : nat) : schema * nat * bool :=
  match fs with
  | [] => (s, valid, true)
  | f :: fs' =>
      if negb (IsAllowed o (f_name f)) then add_fields o row (S idx) fs' s valid
      else
        match f_type f with
        | None => if ignore_unsupported o then add_fields o row (S idx) fs' s valid else (s, valid, false)
        | Some ty =>
            match AddColumn (column_name o (f_name f)) ty row idx s with
            | None => (s, valid, false)
            | Some s' => add_fields o row (S idx) fs' s' (S valid)
            end
        end
  end.
(** table_schema.cc:113-221, 223-333, 335-466.  Simplified: row_schema_index_ is left out. *)
Definition AddColumns (o : options) (fs : list field) (s : schema) : schema * bool :=
  let row := made s in
  let '(s', valid, ok) := add_fields o row 0 fs (mk_schema (columns s) (rows s) (S row)) 0 in
  if ok && negb (Nat.eqb valid 0) then (mk_schema (columns s') (rows s' ++ [row]) (made s'), true) else (s', false).
