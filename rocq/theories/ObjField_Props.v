(** C90: in a UDF, a field of a dynamic object or a column of a table is the one that the host sees under its name. *)
From Coq Require Import Ascii String List Bool Arith ZArith Lia.
Import ListNotations.
From Verif Require Import Base Lexer_Model DType_Spec DType_Model DynObject_Model DynObject_Spec DynObject_Proofs Function_Model
  Names_Spec Names_Model Members_Spec Members_Model Access_Spec Access_Model AccessTotal_Spec ObjField_Spec ObjField_Model ObjField_Proofs.
Local Open Scope Z_scope.

(** Not for every field (the full claim): for schemas without fields of type bool and long double. [x.name], where x is
    the object at [w]: the host and UDFs change fields in any order, starting from a new object. Afterwards the host
    and a UDF both see in each field the value that was given to it last; assignments of other types and to unknown
    fields are refused and change nothing; nothing changes outside of the object. *)
Theorem C90_history_partial :
  forall E arg_ty (arg_value : E -> mem -> outcome (dtype * Z)) var text_word conv ext json F R header fs,
  room header fs -> Forall (fun p => DynObject_Spec.field_type (snd p)) fs ->
  let s := build fs (new_schema header false) in
  s_alloc s <= 2 ^ 31 ->
  forall w, 0 <= w /\ w + s_alloc s <= 2 ^ 64 -> Forall (fun p => udf_field (snd p)) fs ->
  forall cs m, Forall (fun c => proper (as_setting c)) cs -> object_at w (Z.to_nat (s_alloc s)) m = new_object s ->
  exists m', changes arg_ty arg_value var text_word conv ext json F R s w cs m = Ret m' /\
    (forall a, a < w \/ w + s_alloc s <= a -> m' a = m a) /\
    forall name T n, DynObject_Spec.first_type fs name = Some T -> bytes_of T = Some n ->
      let x := last_set name T (repeat 0 n) (map as_setting cs) in
      get s name T n (object_at w (Z.to_nat (s_alloc s)) m') = Ret x /\
      exists v, run_schain arg_ty arg_value var text_word conv ext json F R (get_dtype (CPtr dyn)) (Some s) w [AField name] m' = Ret (get_dtype T, v, m') /\
        v_ty v = get_dtype T /\ word v m' = word_of_bytes x.
Proof. exact @history. Qed.
Print Assumptions C90_history_partial.

(** Whatever the bytes of the object: a UDF reads what Get returns (with fields of type bool beside the field). *)
Theorem C90_field_partial :
  forall E arg_ty (arg_value : E -> mem -> outcome (dtype * Z)) var text_word conv ext json F R header fs,
  room header fs -> Forall (fun p => DynObject_Spec.field_type (snd p)) fs ->
  let s := build fs (new_schema header false) in
  s_alloc s <= 2 ^ 31 ->
  forall w, 0 <= w /\ w + s_alloc s <= 2 ^ 64 ->
  forall name T n m, DynObject_Spec.first_type fs name = Some T -> bytes_of T = Some n -> plain T -> T <> CBase 3 ->
  exists v b, run_schain arg_ty arg_value var text_word conv ext json F R (get_dtype (CPtr dyn)) (Some s) w [AField name] m = Ret (get_dtype T, v, m) /\
    v_ty v = get_dtype T /\ get s name T n (object_at w (Z.to_nat (s_alloc s)) m) = Ret b /\ word v m = word_of_bytes b.
Proof.
  intros E arg_ty arg_value var text_word conv ext json F R header fs RO FT s A w W name T n m H B P N.
  destruct (field_read arg_ty arg_value var text_word conv ext json F R header fs RO FT A w W name T n m H B P N) as (v & b & H1 & H2 & H3 & H4 & _). eauto 8.
Qed.
Print Assumptions C90_field_partial.

(** A field or column that the schema does not have is an error, whatever follows it. *)
Theorem C90_unknown_field :
  forall E arg_ty (arg_value : E -> mem -> outcome (dtype * Z)) var text_word conv ext json F R header tb fs,
  room header fs -> Forall (fun p => DynObject_Spec.field_type (snd p)) fs ->
  forall name l w m, DynObject_Spec.first_type fs name = None ->
  run_schain arg_ty arg_value var text_word conv ext json F R (get_dtype (CPtr dyn)) (Some (build fs (new_schema header tb))) w (AField name :: l) m = Err.
Proof.
  intros E arg_ty arg_value var text_word conv ext json F R header tb fs RO FT name l w m H. apply run_unknown.
  eexists. split; [reflexivity|]. exact (no_field header tb fs RO FT name H).
Qed.
Print Assumptions C90_unknown_field.

(** A field of type bool is checked as a bool, but its value is a pointer to bool: the address of the field. *)
Theorem C90_bool_refuted :
  forall E arg_ty (arg_value : E -> mem -> outcome (dtype * Z)) var text_word conv ext json F R header fs,
  room header fs -> Forall (fun p => DynObject_Spec.field_type (snd p)) fs ->
  let s := build fs (new_schema header false) in
  s_alloc s <= 2 ^ 31 ->
  forall w, 0 <= w /\ w + s_alloc s <= 2 ^ 64 ->
  forall name m, DynObject_Spec.first_type fs name = Some (CBase 3) ->
  exists v f, run_schain arg_ty arg_value var text_word conv ext json F R (get_dtype (CPtr dyn)) (Some s) w [AField name] m = Ret (get_dtype (CBase 3), v, m) /\
    v_ty v = get_dtype (CPtr (CBase 3)) /\ get_field s name = Some f /\ word v m = w + f_offset f.
Proof. exact @bool_field. Qed.
Print Assumptions C90_bool_refuted.

(** Chains on variables with and without a schema. Not for every type, registration and chain (the full claim): with the
    limits of C75_chain_partial, for schemas without bool and long double fields, and for sorting by columns (or by
    values) of built-in types. Then an accepted chain takes exactly its steps: fields at the offsets of the schema,
    columns from the function for their type, topk and order_by from the method for the type of the column; a method
    of an object gives an object of the same schema. *)
Theorem C90_chain_partial :
  forall E arg_ty (arg_value : E -> mem -> outcome (dtype * Z)) var text_word conv ext json F os,
  Forall (ordinary plain) os ->
  (forall d p w m, dtype_eqb d p = Ret true -> conv d p w m = Ret w) ->
  methods_apart (fun t => member_name F (get_dtype t)) json_name os ->
  (forall b, d_name (json b) = json_name b) -> (forall b, d_return (json b) = get_dtype (CPtr (CBase 20))) ->
  gives_columns (fun t => member_name F (get_dtype t)) os ->
  forall t sch w l m T' v m', plain t -> made sch -> brackets_first l -> sorts_by_columns arg_ty l ->
  run_schain arg_ty arg_value var text_word conv ext json F (fst (offer_members os [])) (get_dtype t) sch w l m = Ret (T', v, m') ->
  exists u sch', v_ty v = get_dtype u /\
    ssteps os arg_ty arg_value (fun k _ => key_means var text_word k) conv ext (fun b => d_args (json b)) (fun b => d_func (json b))
      (t, w, m, sch) l (u, word v m', m', sch') /\
    (T' = get_dtype u \/ exists f, 4 <= f <= 15 /\ u = CPtr (CBase f) /\ T' = get_dtype (CBase f)).
Proof.
  intros E arg_ty arg_value var text_word conv ext json F os OS CONV APART JN JR COL t sch w l m T' v m' P MD BF SC H.
  exact (schain arg_ty arg_value var text_word conv ext json F os OS CONV APART JN JR COL t sch w l m T' v m' P (made_fine sch MD) BF SC H).
Qed.
Print Assumptions C90_chain_partial.

(** The converse: a chain whose steps can be taken is accepted, and gives the value and the memory they end with. *)
Theorem C90_accepted_partial :
  forall E arg_ty (arg_value : E -> mem -> outcome (dtype * Z)) var text_word conv ext json F os,
  Forall (ordinary plain) os ->
  (forall b, d_name (json b) = json_name b) -> (forall b, d_return (json b) = get_dtype (CPtr (CBase 20))) ->
  (forall e m d w, arg_value e m = Ret (d, w) -> sized d) -> (forall x d w, var x = Some (d, w) -> sized d) ->
  (forall b, Forall sized (d_args (json b))) ->
  (forall t n b ret args f, In (OMethod t n b ret args f) os -> Forall (supported 2047) args) ->
  (forall d p w m, dtype_eqb d p = Ret true -> conv d p w m = Ret w) ->
  methods_apart (fun t => member_name F (get_dtype t)) json_name os ->
  (forall e m v, arg_value e m = Ret v -> arg_ty e <> None) ->
  gives_columns (fun t => member_name F (get_dtype t)) os ->
  forall t sch w l m u x m' sch', plain t -> made sch -> brackets_first l ->
  ssteps os arg_ty arg_value (fun k _ => key_means var text_word k) conv ext (fun b => d_args (json b)) (fun b => d_func (json b))
    (t, w, m, sch) l (u, x, m', sch') ->
  exists T' v, run_schain arg_ty arg_value var text_word conv ext json F (fst (offer_members os [])) (get_dtype t) sch w l m = Ret (T', v, m') /\
    v_ty v = get_dtype u /\ word v m' = x.
Proof.
  intros E arg_ty arg_value var text_word conv ext json F os OS JN JR SA SV SJ SM CONV APART CH COL t sch w l m u x m' sch' P MD BF ST.
  exact (schain_accepted arg_ty arg_value var text_word conv ext json F os OS JN JR SA SV SJ SM CONV APART CH COL t sch w l m u x m' sch' P (made_fine sch MD) BF ST).
Qed.
Print Assumptions C90_accepted_partial.

(** With the methods that the library registers for tables: a column is what its get_column function gives for the table
    and the offset of the column, for twelve types of columns. *)
Theorem C90_columns :
  forall E arg_ty (arg_value : E -> mem -> outcome (dtype * Z)) var text_word conv ext json F addr s n f off w m,
  s_table s = true -> get_field s n = Some (Field (get_dtype (CSeq KSimdVector (CBase f))) off) -> In f column_types ->
  run_schain arg_ty arg_value var text_word conv ext json F (fst (offer_members (table_methods addr) [])) (get_dtype (CPtr dyn)) (Some s) w [AField n] m =
  (do! (x, m') <- ext (addr (lit "get_column_" ++ fundamental_name f)) [w; off] m;
   Ret (get_dtype (CSeq KSimdVector (CBase f)), Val (get_dtype (CSeq KSimdVector (CBase f))) (Imm x), m')).
Proof. exact @columns. Qed.
Print Assumptions C90_columns.
(** When the schema has a column of another type, half floats (12) for example, a UDF that uses it is refused. *)
Theorem C90_other_columns_refuted :
  forall E arg_ty (arg_value : E -> mem -> outcome (dtype * Z)) var text_word conv ext json F addr s n f off w m,
  s_table s = true -> get_field s n = Some (Field (get_dtype (CSeq KSimdVector (CBase f))) off) -> builtin f -> f <> 24 -> ~ In f column_types ->
  run_schain arg_ty arg_value var text_word conv ext json F (fst (offer_members (table_methods addr) [])) (get_dtype (CPtr dyn)) (Some s) w [AField n] m = Err.
Proof. exact @other_columns. Qed.
Print Assumptions C90_other_columns_refuted.

(** README.md lists group_by(Vector<T> column) among the operations of tables. In UDFs there are only group_by_f32 and so
    on: unlike topk and order_by, group_by is always refused. *)
Theorem C90_group_by_refuted :
  forall E arg_ty (arg_value : E -> mem -> outcome (dtype * Z)) var text_word conv ext json F addr sch es l w m,
  run_schain arg_ty arg_value var text_word conv ext json F (fst (offer_members (table_methods addr) [])) (get_dtype (CPtr dyn)) sch w (ACall (lit "group_by") es :: l) m = Err.
Proof. exact @group_by_refused. Qed.
Print Assumptions C90_group_by_refuted.
(** order_by with the name of a column is registered, but a UDF that calls it on a table is refused: the call is resolved
    to order_by_string_view, which is not. *)
Theorem C90_order_by_refuted :
  forall E arg_ty (arg_value : E -> mem -> outcome (dtype * Z)) var text_word conv ext json F addr s e e' es l w m,
  s_table s = true -> arg_ty e = Some (get_dtype (CBase 17)) ->
  In (OMethod dyn (lit "order_by") true (CPtr dyn) [CBase 17; CBase 3] (addr (lit "order_by"))) (table_methods addr) /\
  run_schain arg_ty arg_value var text_word conv ext json F (fst (offer_members (table_methods addr) [])) (get_dtype (CPtr dyn)) (Some s) w (ACall (lit "order_by") (e :: e' :: es) :: l) m = Err.
Proof. intros. split; [unfold table_methods; rewrite !in_app_iff; do 3 right; left; now left|now apply order_by_refused]. Qed.
Print Assumptions C90_order_by_refuted.

(** The schema is that of the declaration of the variable: for an object of another schema the UDF reads, without any
    error, another field than the host. *)
Theorem C90_other_schema_refuted : exists fs fs' o v b,
  let s := build fs (new_schema 0 false) in
  let s' := build fs' (new_schema 0 false) in
  let m := put_object 4096 o (fun _ => 0) in
  set_all s' [Setting (lit "id") Rvalue (CBase 9) [1; 0; 0; 0]; Setting (lit "price") Rvalue (CBase 9) [2; 0; 0; 0]] (new_object s') = Ret o /\
  run_schain arg_ty arg_value (fun _ => None) (fun _ => 0) conv ext json no_names [] (get_dtype (CPtr dyn)) (Some s) 4096 [AField (lit "id")] m = Ret (get_dtype (CBase 9), v, m) /\
  get s' (lit "id") (CBase 9) 4 o = Ret b /\ word_of_bytes b = 1 /\ word v m = 2.
Proof.
  exists [(lit "id", CBase 9); (lit "price", CBase 9)], [(lit "price", CBase 9); (lit "id", CBase 9)].
  do 3 eexists. cbv zeta. split; [vm_compute; reflexivity|].
  split; [apply (run_field arg_ty arg_value _ _ conv ext json no_names [] _ _ (CBase 9) 16); try reflexivity; first [discriminate | lia | (split; [cbn; lia|reflexivity]) | (cbn; lia)]|].
  split; [vm_compute; reflexivity|]. split; vm_compute; reflexivity.
Qed.
Print Assumptions C90_other_schema_refuted.

(** ** Examples *)
Example C90_ex_history :
  room 0 udf_fields /\ Forall (fun p => udf_field (snd p)) udf_fields /\ Forall (fun c => proper (as_setting c)) some_changes /\
  (let s := build udf_fields (new_schema 0 false) in
   s_alloc s <= 2 ^ 31 /\ object_at 4096 (Z.to_nat (s_alloc s)) (fun _ => 0) = new_object s) /\
  last_set (lit "id") (CBase 10) (repeat 0 8) (map as_setting some_changes) = [78; 0; 0; 0; 0; 0; 0; 0] /\
  last_set (lit "score") (CBase 13) (repeat 0 4) (map as_setting some_changes) = [9; 8; 7; 6].
Proof.
  split; [split; vm_compute; congruence|].
  split; [repeat constructor; cbn [snd]; try (split; [vm_compute; split; congruence|]); repeat split; vm_compute; congruence|].
  split; [unfold some_changes; repeat (apply Forall_cons; [split; [vm_compute; split; congruence|]; split; [exact I|]; intros n H; vm_compute in H; injection H as <-; reflexivity|]); apply Forall_nil|].
  split; [|split; vm_compute; reflexivity].
  cbv zeta. split; [vm_compute; congruence|]. vm_compute. reflexivity.
Qed.
Example C90_ex_bool : room 0 fields /\ DynObject_Spec.first_type fields (lit "on") = Some (CBase 3) /\ DynObject_Spec.first_type fields (lit "none") = None /\
  s_alloc (build fields (new_schema 0 false)) <= 2 ^ 31.
Proof. split; [split; vm_compute; congruence|]. split; [reflexivity|]. split; [reflexivity|]. vm_compute. congruence. Qed.
(** t.filter(b).topk(c, 5, on).score, with a vector of f32 for c *)
Definition a_chain : list (access Z) := [ACall (lit "filter") [0]; ACall (lit "topk") [1; 8; 3]; AField (lit "score")].
Example C90_ex_chain :
  Forall (ordinary plain) other_methods /\ methods_apart (fun t => member_name no_names (get_dtype t)) json_name other_methods /\
  gives_columns (fun t => member_name no_names (get_dtype t)) other_methods /\ plain (CPtr dyn) /\ made (Some table_schema) /\
  brackets_first a_chain /\ sorts_by_columns arg_ty a_chain /\
  match run_schain arg_ty arg_value (fun _ => None) (fun _ => 0) conv ext json no_names (fst (offer_members other_methods [])) (get_dtype (CPtr dyn)) (Some table_schema) 4096 a_chain (fun _ => 0) with
  | Ret (T, v, m) => T = get_dtype (CSeq KSimdVector (CBase 13)) /\ m 0 = 3
  | _ => False
  end.
Proof.
  split; [exact other_ordinary|]. split; [exact (other_apart no_names)|]. split; [exact (other_columns_given no_names)|]. split; [exact plain_dyn|].
  split. { right. exists 100, true, table_fields. split; [reflexivity|]. split; [lia|]. split; [vm_compute; congruence|].
    split; [repeat constructor; cbn [snd]; try (split; [vm_compute; split; congruence|]); repeat split; vm_compute; congruence|].
    split; [|vm_compute; congruence]. intros _. unfold table_fields.
    repeat (apply Forall_cons; [cbn [snd]; eexists; split; [|split; [|reflexivity]]; unfold builtin; lia|]). apply Forall_nil. }
  split; [repeat constructor|].
  split. { intros n e e' es I BC d A. unfold a_chain in I. cbn [In] in I. destruct I as [I|[I|[I|[]]]]; try discriminate I. injection I as <- <- <- <-.
    injection A as <-. exists 13, true. split; [unfold builtin; lia|]. split; [lia|reflexivity]. }
  vm_compute. split; reflexivity.
Qed.
Example C90_ex_columns : s_table table_schema = true /\
  (exists off, get_field table_schema (lit "score") = Some (Field (get_dtype (CSeq KSimdVector (CBase 13))) off)) /\ In 13 column_types /\
  (exists off, get_field table_schema (lit "half") = Some (Field (get_dtype (CSeq KSimdVector (CBase 12))) off)) /\ ~ In 12 column_types /\
  arg_ty 17 = Some (get_dtype (CBase 17)).
Proof.
  split; [vm_compute; reflexivity|]. split; [eexists; vm_compute; reflexivity|]. split; [cbn; tauto|]. split; [eexists; vm_compute; reflexivity|].
  split; [|reflexivity]. cbn. intros H. repeat (destruct H as [H|H]; [discriminate H|]). contradiction.
Qed.
(** The other hypotheses of C90_accepted_partial, for the chain of C90_ex_chain. *)
Example C90_ex_accepted :
  (forall e m d w, arg_value e m = Ret (d, w) -> sized d) /\ (forall b, Forall sized (d_args (json b))) /\
  (forall t n b ret args f, In (OMethod t n b ret args f) other_methods -> Forall (supported 2047) args) /\
  (forall e m v, arg_value e m = Ret v -> arg_ty e <> None).
Proof.
  split. { intros e m d w H. unfold arg_value, arg_ty in H. injection H as <- _. pose proof (Z.mod_pos_bound (e - 1) 2046 ltac:(lia)).
    destruct (e =? 0); [|destruct (e =? 1)]; eexists; (split; [|reflexivity]); cbn [supported vector_of]; unfold vector_of; cbn [supported]; lia. }
  split; [intros b; constructor|]. split; [|discriminate].
  intros t n b ret args f I. vm_compute in I. repeat (destruct I as [I|I]; [injection I as _ _ _ _ <- _; repeat (apply Forall_cons; [cbn; lia|]); apply Forall_nil|]). contradiction.
Qed.
