(** What fields of dynamic objects and columns of tables mean in a UDF (C90), in terms of what the host sees under the
    same names. *)
From Coq Require Import Ascii String List Bool Arith ZArith.
Import ListNotations.
From Verif Require Import Base Lexer_Model DType_Spec DType_Model DynObject_Model DynObject_Spec Names_Spec Names_Model Members_Spec Access_Spec.
Local Open Scope Z_scope.

(** DynObject, the base class of tables; dyn_obj<S> and table<S> are pointers to it. *)
Definition dyn : cpptype := CBase 22.

(** ** Objects in memory *)
Definition object_at (w : Z) (n : nat) (m : mem) : bytes := map (fun i => m (w + Z.of_nat i)) (seq 0 n).
Definition put_object (w : Z) (o : bytes) (m : mem) : mem :=
  fun a => if (w <=? a) && (a <? w + Z.of_nat (length o)) then nth (Z.to_nat (a - w)) o 0 else m a.
(** Words as bytes, the lowest first. *)
Fixpoint bytes_of_word (n : nat) (x : Z) : bytes := match n with O => [] | S n => x mod 256 :: bytes_of_word n (x / 256) end.
Fixpoint word_of_bytes (b : bytes) : Z := match b with [] => 0 | x :: b => x + 256 * word_of_bytes b end.

(** What happens to an object: the host calls Set; a UDF runs  x.name = e  with a value [u] of type [T] for e. *)
Inductive change : Type :=
| ByHost (t : setting)
| ByUdf (name : text) (T : cpptype) (u : Z).
(** Both are assignments of values to fields. *)
Definition as_setting (c : change) : setting :=
  match c with
  | ByHost t => t
  | ByUdf name T u => Setting name Rvalue T (bytes_of_word (match bytes_of T with Some n => n | None => 0 end) u)
  end.

(** The fields that a UDF can use: no bool, no long double. *)
Definition udf_field (T : cpptype) : Prop := field_type T /\ plain T /\ T <> CBase 3.
(** Columns are vectors of built-in types. *)
Definition column (T : cpptype) : Prop := exists f, builtin f /\ f <> 24 /\ T = CSeq KSimdVector (CBase f).

(** ** Chains of accesses *)
Section Meaning.
Context {E : Type}.
Variable members : list offer.
Variable arg_ty : E -> option dtype.
Variable arg_value : E -> mem -> outcome (dtype * Z).
Variable key_value : key -> mem -> outcome (dtype * Z).
Variable conv : dtype -> dtype -> Z -> mem -> outcome Z.
Variable ext : Z -> list Z -> mem -> outcome (Z * mem).
Variable json_params : bool -> list dtype.
Variable json_fun : bool -> Z.

(** topk and order_by of tables have a method for every type of columns: topk_f32, order_by_u64, ... *)
Definition by_column (n : text) : Prop := n = lit "topk" \/ n = lit "order_by".
Inductive method : bool -> text -> list E -> text -> Prop :=
| method_column n e e' es f (vec : bool) : by_column n -> builtin f -> f <> 24 -> arg_ty e = Some (get_dtype (if vec then CSeq KSimdVector (CBase f) else CBase f)) ->
    method true n (e :: e' :: es) (n ++ lit "_" ++ fundamental_name f)
| method_few n es : (length es < 2)%nat -> method true n es n
| method_other n es : ~ by_column n -> method true n es n
| method_object n es : method false n es n.

(** An object, with the schema that the UDF gives to it. *)
Definition sobj : Type := (obj * option schema)%type.
Definition a_table (o : obj) (sch : option schema) : bool :=
  match fst (fst o), sch with CPtr (CBase f), Some s => (f =? 22) && s_table s | _, _ => false end.
Inductive sstep : sobj -> access E -> sobj -> Prop :=
| s_field s n T off w m : s_table s = false -> udf_field T -> get_field s n = Some (Field (get_dtype T) off) ->
    sstep (CPtr dyn, w, m, Some s) (AField n) (T, read (size_in_bytes T) ((w + off) mod 2 ^ 64) m, m, None)
| s_column s n f off w m o : s_table s = true -> builtin f -> f <> 24 -> get_field s n = Some (Field (get_dtype (CSeq KSimdVector (CBase f))) off) ->
    calls members conv ext (CPtr dyn, w, m) dyn (lit "get_column_" ++ fundamental_name f) [(get_dtype (CBase 8), off)] o ->
    sstep (CPtr dyn, w, m, Some s) (AField n) (o, None)
| s_struct o sch n o' : sch = None \/ fst (fst o) <> CPtr dyn ->
    step members arg_value key_value conv ext json_params json_fun o (AField n) o' ->
    sstep (o, sch) (AField n) (o', None)
| s_call o sch n n' es o' : method (a_table o sch) n es n' ->
    step members arg_value key_value conv ext json_params json_fun o (ACall n' es) o' ->
    sstep (o, sch) (ACall n es) (o', sch)
| s_index o sch k o' : step members arg_value key_value conv ext json_params json_fun o (AIndex k) o' ->
    sstep (o, sch) (AIndex k) (o', None).
Inductive ssteps : sobj -> list (access E) -> sobj -> Prop :=
| ssteps_end o : ssteps o [] o
| ssteps_more o a o' l o'' : sstep o a o' -> ssteps o' l o'' -> ssteps o (a :: l) o''.

(** In calls of topk and order_by, what comes first is a vector or a value of a built-in type. *)
Definition sorts_by_columns (l : list (access E)) : Prop :=
  forall n e e' es, In (ACall n (e :: e' :: es)) l -> by_column n -> forall d, arg_ty e = Some d ->
  exists f (vec : bool), builtin f /\ f <> 24 /\ d = get_dtype (if vec then CSeq KSimdVector (CBase f) else CBase f).
End Meaning.

(** The functions that give columns are registered with their types, and no other method has the linker name of one. *)
Definition gives_columns (name : cpptype -> text -> outcome text) (os : list offer) : Prop :=
  forall f, builtin f ->
  let n := lit "get_column_" ++ fundamental_name f in
  (forall b ret args a, In (OMethod dyn n b ret args a) os -> ret = CSeq KSimdVector (CBase f)) /\
  (forall t' n' b ret args a, In (OMethod t' n' b ret args a) os -> name t' n' = name dyn n -> t' = dyn /\ n' = n).
(** A schema that was made by adding fields, if any; the objects are smaller than 2 GiB. *)
Definition made (sch : option schema) : Prop :=
  sch = None \/ exists header tb fs, sch = Some (build fs (new_schema header tb)) /\
    0 <= header /\ header + 24 + 16 * Z.of_nat (length fs) < 2 ^ 32 /\ Forall (fun p => udf_field (snd p)) fs /\
    (tb = true -> Forall (fun p => column (snd p)) fs) /\ s_alloc (build fs (new_schema header tb)) <= 2 ^ 31.
(** The types of columns that there are functions for. *)
Definition column_types : list Z := [3; 4; 5; 6; 7; 8; 9; 10; 11; 13; 14; 17].
