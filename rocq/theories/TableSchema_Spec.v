(** What a user expects of a table schema. *)
From Coq Require Import Ascii String List Bool Arith ZArith.
Import ListNotations.
From Verif Require Import Base TableSchema_Model.

(** Visible: in the include list if there is one, else not in the exclude list. *)
Definition visible (include exclude : list string) (name : string) : Prop :=
  (include <> [] -> In name include) /\ (include = [] -> ~ In name exclude).

(** The columns a row type gives: one for each visible field that has a column type, in order, named with the prefix. *)
Definition visible_b (include exclude : list string) (name : string) : bool :=
  match include with [] => negb (existsb (String.eqb name) exclude) | _ => existsb (String.eqb name) include end.
Definition columns_of_type (include exclude : list string) (pre : string) (row : nat) (fs : list field) : list column :=
  flat_map (fun f => match f_type (snd f) with
                     | Some ty => if visible_b include exclude (f_name (snd f))
                                  then [mk_column (pre ++ f_name (snd f))%string ty row (fst f)] else []
                     | None => []
                     end) (combine (seq 0 (length fs)) fs).

(** Calls on a schema. *)
Fixpoint adds (l : list (options * list field)) (s : schema) : schema * list bool :=
  match l with
  | [] => (s, [])
  | (o, fs) :: l' => let (s', ok) := AddColumns o fs s in let (s'', oks) := adds l' s' in (s'', ok :: oks)
  end.
(** Every column belongs to a row schema the table schema owns. *)
Definition sound (s : schema) : Prop := forall c, In c (columns s) -> In (c_row c) (rows s).
