(** C87: the columns of a table have the values of the fields of its rows. *)
From Coq Require Import List ZArith Bool Lia.
Import ListNotations.
From Verif Require Import Base DType_Spec DType_Model DynObject_Model Column_Spec Column_Model Column_Proofs.
Local Open Scope Z_scope.

(** ** Which fields become columns, and of which type *)
(** Protobuf: every field but enumerations, messages and groups; one of these is an error unless ignored. *)
Theorem C87_columns_of_protobuf_messages ign fs :
  (ign = true \/ Forall (fun f => pb_cpp (pb_ty f) <> None) fs ->
   add_columns decide_pb ign 0 fs = Ret (map (fun p => (fst p, get_dtype (snd p))) (expected_columns pb_column fs))) /\
  (ign = false -> Exists (fun f => pb_cpp (pb_ty f) = None) fs -> add_columns decide_pb ign 0 fs = Err).
Proof. exact (pb_columns ign fs). Qed.
Print Assumptions C87_columns_of_protobuf_messages.
(** FlatBuffers: every field but unions and tables. *)
Theorem C87_columns_of_flatbuffers_tables ign fs :
  (ign = true \/ Forall (fun f => fbs_cpp (fbs_ty f) <> None) fs ->
   add_columns decide_fbs ign 0 fs = Ret (map (fun p => (fst p, get_dtype (snd p))) (expected_columns fbs_column fs))) /\
  (ign = false -> Exists (fun f => fbs_cpp (fbs_ty f) = None) fs -> add_columns decide_fbs ign 0 fs = Err).
Proof. exact (fbs_columns ign fs). Qed.
Print Assumptions C87_columns_of_flatbuffers_tables.
(** Structs: members of the types [becomes_column] lists, for all C++ types that have a data type. *)
Theorem C87_columns_of_structs ign ms : Forall (fun m => supported (2 ^ 14 - 1) (m_type m)) ms ->
  (ign = true \/ Forall (fun m => m_function m = true /\ m_only_this m = false \/ becomes_column (m_type m) = true) ms ->
   exists cols, add_columns decide_struct ign 0 ms = Ret cols /\
     Forall2 (fun c e => fst c = fst e /\ dtype_eqb (snd c) (get_dtype (snd e)) = Ret true) cols
       (expected_columns struct_column ms)) /\
  (ign = false -> Exists (fun m => (m_function m = false \/ m_only_this m = true) /\ becomes_column (m_type m) = false) ms ->
   add_columns decide_struct ign 0 ms = Err).
Proof. exact (struct_columns ign ms). Qed.
Print Assumptions C87_columns_of_structs.

(** ** Values *)
(** Singular protobuf fields: element [j] of the column is the field of row [j]; null rows have 0, false or "". *)
Theorem C87_protobuf_values ign fs cols i d f rows :
  add_columns decide_pb ign 0 fs = Ret cols -> In (i, d) cols -> nth_error fs i = Some f -> pb_repeated f = false ->
  rows_ok (pb_message_ok fs) rows ->
  exists c, pb_cpp (pb_ty f) = Some c /\
    load_column pb_getters_ fs (i, d) rows =
      Ret (map (fun r => match r with Some m => show (m i) | None => zero_cell false c end) rows).
Proof. exact (pb_values ign fs cols i d f rows). Qed.
Print Assumptions C87_protobuf_values.
(** Repeated protobuf fields: only strings of at most 12 bytes can be read; the other elements point at memory that has
    been released. *)
Theorem C87_repeated_protobuf_fields_partial ign fs cols i d f rows :
  add_columns decide_pb ign 0 fs = Ret cols -> In (i, d) cols -> nth_error fs i = Some f -> pb_repeated f = true ->
  rows_ok (pb_message_ok fs) rows ->
  load_column pb_getters_ fs (i, d) rows =
    Ret (map (fun r => match r with
                       | Some m => match m i with
                                   | VList l => Many (map (fun v => if survives v then Some v else None) l)
                                   | _ => Many []
                                   end
                       | None => Many []
                       end) rows).
Proof. exact (pb_values_many ign fs cols i d f rows). Qed.
Print Assumptions C87_repeated_protobuf_fields_partial.
Theorem C87_repeated_protobuf_fields_refuted :
  ~ (forall ign fs cols i d rows, add_columns decide_pb ign 0 fs = Ret cols -> In (i, d) cols ->
     rows_ok (pb_message_ok fs) rows ->
     exists c, load_column pb_getters_ fs (i, d) rows =
       Ret (map (fun r => match r with Some m => show (m i) | None => zero_cell true c end) rows)).
Proof. exact pb_many_refuted. Qed.
Print Assumptions C87_repeated_protobuf_fields_refuted.

(** FlatBuffers fields: what the generated accessor gives, if rows store their strings and vectors, and numbers they do
    not store have the default 0. *)
Theorem C87_flatbuffers_values_partial ign fs cols i d f rows :
  add_columns decide_fbs ign 0 fs = Ret cols -> In (i, d) cols -> nth_error fs i = Some f ->
  rows_ok (fbs_table_ok fs) rows ->
  rows_ok (fun o => o i = None -> fbs_repeating f = false /\ fbs_ty f <> ET_STRING /\ fbs_default f = 0) rows ->
  exists c, fbs_cpp (fbs_ty f) = Some c /\
    load_column fbs_getters fs (i, d) rows =
      Ret (map (fun r => match r with
                         | Some o => show (fbs_reads f (o i))
                         | None => zero_cell (fbs_repeating f) c
                         end) rows).
Proof. exact (fbs_number_absent ign fs cols i d f rows). Qed.
Print Assumptions C87_flatbuffers_values_partial.
(** Numbers that are not stored are 0 in the column, whatever the default. *)
Theorem C87_flatbuffers_defaults ign fs cols i d f rows :
  add_columns decide_fbs ign 0 fs = Ret cols -> In (i, d) cols -> nth_error fs i = Some f ->
  rows_ok (fbs_table_ok fs) rows ->
  rows_ok (fun o => o i = None -> fbs_repeating f = false /\ fbs_ty f <> ET_STRING) rows ->
  exists c, fbs_cpp (fbs_ty f) = Some c /\
    load_column fbs_getters fs (i, d) rows =
      Ret (map (fun r => match r with
                         | Some o => match o i with Some v => show v | None => One (VNum 0) end
                         | None => zero_cell (fbs_repeating f) c
                         end) rows).
Proof. exact (fbs_values ign fs cols i d f rows). Qed.
Print Assumptions C87_flatbuffers_defaults.
Theorem C87_flatbuffers_defaults_refuted :
  ~ (forall ign fs cols i d f rows, add_columns decide_fbs ign 0 fs = Ret cols -> In (i, d) cols ->
     nth_error fs i = Some f -> rows_ok (fbs_table_ok fs) rows ->
     exists c, load_column fbs_getters fs (i, d) rows =
       Ret (map (fun r => match r with Some o => show (fbs_reads f (o i)) | None => zero_cell (fbs_repeating f) c end) rows)).
Proof. exact fbs_default_refuted. Qed.
Print Assumptions C87_flatbuffers_defaults_refuted.
(** One row without a string or vector is enough for undefined behaviour. *)
Theorem C87_flatbuffers_missing_strings_refuted ign fs cols i d f rows o :
  add_columns decide_fbs ign 0 fs = Ret cols -> In (i, d) cols -> nth_error fs i = Some f ->
  rows_ok (fbs_table_ok fs) rows -> In (Some o) rows -> o i = None -> fbs_repeating f = true \/ fbs_ty f = ET_STRING ->
  load_column fbs_getters fs (i, d) rows = UB.
Proof. exact (fbs_undefined ign fs cols i d f rows o). Qed.
Print Assumptions C87_flatbuffers_missing_strings_refuted.

(** Struct members: the value of the member if it is [kept]; 0, "" or no elements otherwise; an error for arrays and
    vectors of half and long double. *)
Theorem C87_struct_values_partial ign ms cols i d rows : Forall (fun m => supported (2 ^ 14 - 1) (m_type m)) ms ->
  add_columns decide_struct ign 0 ms = Ret cols -> In (i, d) cols -> rows_ok (object_ok ms) rows ->
  exists m, nth_error ms i = Some m /\
    (unloadable (m_type m) = false ->
     load_column struct_getters ms (i, d) rows =
       Ret (map (fun r => match r with
                          | Some o => if kept m then show (o i) else zero_cell (many (m_type m)) (elem_code (m_type m))
                          | None => zero_cell (many (m_type m)) (elem_code (m_type m))
                          end) rows)) /\
    (unloadable (m_type m) = true -> rows <> [] -> load_column struct_getters ms (i, d) rows = Err).
Proof. exact (struct_values ign ms cols i d rows). Qed.
Print Assumptions C87_struct_values_partial.
(** Every member that becomes a column and is not [kept] shows something else than its value. *)
Theorem C87_struct_values_refuted m : kept m = false -> unloadable (m_type m) = false -> becomes_column (m_type m) = true ->
  supported (2 ^ 14 - 1) (m_type m) -> m_function m && negb (m_only_this m) = false ->
  forall o, object_ok [m] o -> show (o 0%nat) <> zero_cell (many (m_type m)) (elem_code (m_type m)) ->
  exists cols d, add_columns decide_struct false 0 [m] = Ret cols /\ In (0%nat, d) cols /\
    load_column struct_getters [m] (0%nat, d) [Some o] <> Ret [show (o 0%nat)].
Proof. exact (struct_refuted m). Qed.
Print Assumptions C87_struct_values_refuted.

(** ** The hypotheses can be met *)
Example C87_ex_struct :
  Forall (fun m => supported (2 ^ 14 - 1) (m_type m)) ex_members /\ object_ok ex_members ex_object /\
  map kept ex_members = [true; true; true; false; true; true] /\
  exists cols, add_columns decide_struct false 0 ex_members = Ret cols /\ map fst cols = [0; 1; 2; 3; 4]%nat /\
    map (fun c => load_column struct_getters ex_members c [Some ex_object; None]) cols =
      [Ret [One (VNum 5); One (VNum 0)]; Ret [One (VStr [104; 105]); One (VStr [])];
       Ret [Many [Some (VNum 1); Some (VNum 2)]; Many []]; Ret [Many []; Many []]; Ret [One (VStr [120]); One (VStr [])]].
Proof.
  split; [|split; [|split; [reflexivity|]]].
  - unfold ex_members. repeat (apply Forall_cons; [cbn [m_type supported]; first [lia | split; [exists 14; split; [reflexivity|lia]|lia]]|]).
    apply Forall_nil.
  - intros i m. do 6 (destruct i as [|i]; [intros [= <-]; cbn; repeat (split || constructor); (discriminate || tauto)|]).
    destruct i; discriminate.
  - eexists. split; [reflexivity|]. split; reflexivity.
Qed.
Example C87_ex_protobuf :
  pb_message_ok ex_message_fields ex_message /\ add_columns decide_pb false 0 ex_message_fields = Err /\
  exists cols, add_columns decide_pb true 0 ex_message_fields = Ret cols /\ map fst cols = [0; 1]%nat /\
    map (fun c => load_column pb_getters_ ex_message_fields c [Some ex_message; None]) cols =
      [Ret [One (VNum 5); One (VNum 0)]; Ret [Many [Some (VStr [97]); None]; Many []]].
Proof.
  split; [|split; [reflexivity|]].
  - intros i m. do 3 (destruct i as [|i]; [intros [= <-]; cbn; repeat (split || constructor); (discriminate || tauto)|]).
    destruct i; discriminate.
  - eexists. split; [reflexivity|]. split; reflexivity.
Qed.
Example C87_ex_flatbuffers :
  fbs_table_ok ex_table_fields ex_table /\
  exists cols, add_columns decide_fbs false 0 ex_table_fields = Ret cols /\ map fst cols = [0; 1]%nat /\
    map (fun c => load_column fbs_getters ex_table_fields c [Some ex_table; None]) cols =
      [Ret [One (VNum 80); One (VNum 0)]; Ret [One (VStr [97]); One (VStr [])]] /\
    map (fun c => load_column fbs_getters ex_table_fields c [Some (fun _ => None)]) cols = [Ret [One (VNum 0)]; UB].
Proof.
  split.
  - intros i m v. do 2 (destruct i as [|i]; [intros [= <-] [= <-]; cbn; repeat (split || constructor); (discriminate || tauto)|]).
    destruct i; discriminate.
  - eexists. split; [reflexivity|]. repeat split; reflexivity.
Qed.
