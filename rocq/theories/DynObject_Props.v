(** C26, C27: dynamic objects and the registry of their schemas. *)
From Coq Require Import Ascii String List Bool Arith ZArith Lia.
Import ListNotations.
From Verif Require Import Base Lexer_Model DType_Spec DType_Model DynObject_Model DynObject_Spec DynObject_Proofs.
Local Open Scope Z_scope.

(** ** C26 *)
(** Full statement: for all schemas. Proved for schemas without long double, [C26_long_double_refuted], of less
    than four gigabytes, for objects that are created when the schema is complete, [C26_late_field_refuted]. *)
(** Every field lies inside the object behind its header, at a multiple of eight, apart from all others. *)
Theorem C26_layout_partial : forall header tb fs name T n,
  room header fs -> Forall (fun p => field_type (snd p)) fs ->
  first_type fs name = Some T -> bytes_of T = Some n ->
  let s := build fs (new_schema header tb) in
  exists f, get_field s name = Some f /\ f_dtype f = get_dtype T /\
    header <= f_offset f /\ 8 <= f_offset f /\ f_offset f + Z.of_nat n <= s_alloc s /\ f_offset f mod 8 = 0 /\
    forall name' f' T' n', name' <> name -> get_field s name' = Some f' -> first_type fs name' = Some T' -> bytes_of T' = Some n' ->
      f_offset f + Z.of_nat n <= f_offset f' \/ f_offset f' + Z.of_nat n' <= f_offset f.
Proof. exact layout. Qed.
Print Assumptions C26_layout_partial.
(** After any calls of Set, successful or not, Get returns the last value set to the field, zero bytes before;
    nothing is written outside the object. *)
Theorem C26_set_get_partial : forall header tb fs ts,
  room header fs -> Forall (fun p => field_type (snd p)) fs -> Forall proper ts ->
  let s := build fs (new_schema header tb) in
  exists o, set_all s ts (new_object s) = Ret o /\
    forall name T n, first_type fs name = Some T -> bytes_of T = Some n ->
      get s name T n o = Ret (last_set name T (repeat 0 n) ts).
Proof. exact (fun header tb fs ts R F => set_get header tb fs R F ts). Qed.
Print Assumptions C26_set_get_partial.
(** A field that does not exist or has another type is an error. *)
Theorem C26_mismatch : forall header tb fs name p T v n o,
  room header fs -> Forall (fun p => field_type (snd p)) fs ->
  supported 2047 T -> no_arrays T -> first_type fs name <> Some T ->
  let s := build fs (new_schema header tb) in
  set s name p T v o = Err /\ get s name T n o = Err.
Proof. exact (fun header tb fs name p T v n o R F => mismatch header tb fs R F name p T v n o). Qed.
Print Assumptions C26_mismatch.

Definition ex_fields : list (text * cpptype) :=
  [(lit "id", CBase 9); (lit "name", CBase 17); (lit "id", CBase 14); (lit "scores", CSeq KSimdVector (CBase 13)); (lit "flag", CBase 3)].
Definition ex_sets : list setting :=
  [Setting (lit "id") Rvalue (CBase 9) [1; 2; 3; 4]; Setting (lit "flag") Const_variable (CBase 3) [1];
   Setting (lit "id") Rvalue (CBase 11) [9; 9; 9; 9; 9; 9; 9; 9]; Setting (lit "id") Rvalue (CBase 9) [5; 6; 7; 8]].
Example C26_ex : room 0 ex_fields /\ Forall (fun p => field_type (snd p)) ex_fields /\ Forall proper ex_sets /\
  first_type ex_fields (lit "id") = Some (CBase 9) /\ last_set (lit "id") (CBase 9) (repeat 0 4) ex_sets = [5; 6; 7; 8] /\
  s_alloc (build ex_fields (new_schema 0 false)) = 64.
Proof.
  split; [split; vm_compute; congruence|]. split; [repeat constructor; cbn [snd]; try (split; [vm_compute; split; congruence|]); repeat split; vm_compute; congruence|].
  split; [unfold ex_sets; repeat (apply Forall_cons; [split; [vm_compute; split; congruence|]; split; [exact I|]; intros n H; vm_compute in H; injection H as <-; reflexivity|]); apply Forall_nil|]. repeat split; vm_compute; reflexivity.
Qed.

(** Setting a long double changes the field behind it, *)
Theorem C26_long_double_refuted : exists fs o,
  fs = [(lit "x", long_double); (lit "y", CBase 11)] /\
  (let s := build fs (new_schema 0 false) in
   set s (lit "x") Rvalue long_double [0; 0; 0; 0; 0; 0; 0; 128; 255; 63] (new_object s) = Ret o /\
   get s (lit "y") (CBase 11) 8 (new_object s) = Ret [0; 0; 0; 0; 0; 0; 0; 0] /\
   get s (lit "y") (CBase 11) 8 o = Ret [255; 63; 0; 0; 0; 0; 0; 0]).
Proof. do 2 eexists. split; [reflexivity|]. split; [vm_compute; reflexivity|]. split; vm_compute; reflexivity. Qed.
Print Assumptions C26_long_double_refuted.
(** or writes behind the object. *)
Theorem C26_long_double_outside_refuted :
  let s := build [(lit "x", long_double)] (new_schema 0 false) in
  set s (lit "x") Rvalue long_double [0; 0; 0; 0; 0; 0; 0; 128; 255; 63] (new_object s) = UB.
Proof. vm_compute. reflexivity. Qed.
Print Assumptions C26_long_double_outside_refuted.
(** A variable that could be modified cannot be passed to Set: the call is always an error. *)
Theorem C26_set_variable_refuted : forall header tb fs name T v o,
  room header fs -> Forall (fun p => field_type (snd p)) fs -> supported 2047 T -> no_arrays T ->
  set (build fs (new_schema header tb)) name Variable_ T v o = Err.
Proof. exact (fun header tb fs name T v o R F => variable_refused header tb fs R F name T v o). Qed.
Print Assumptions C26_set_variable_refuted.
(** Adding a field succeeds exactly for a name that is new. *)
Theorem C26_add_new_names_only : forall header tb fs name T,
  room header fs -> Forall (fun p => field_type (snd p)) fs -> field_type T ->
  (first_type fs name = None <-> add name (get_dtype T) (build fs (new_schema header tb)) <> None).
Proof. exact add_accepts. Qed.
Print Assumptions C26_add_new_names_only.
(** Setting a field that was added to the schema after the object was created writes behind the object. *)
Theorem C26_late_field_refuted : forall header tb fs name T v s',
  room header fs -> Forall (fun p => field_type (snd p)) fs -> field_type T ->
  bytes_of T = Some (length v) -> first_type fs name = None ->
  let s := build fs (new_schema header tb) in
  add name (get_dtype T) s = Some s' -> set s' name Rvalue T v (new_object s) = UB.
Proof. exact late_field. Qed.
Print Assumptions C26_late_field_refuted.

(** ** C27 *)
(** From the call that creates a name on, in all histories: the name keeps its schema, other definitions are ignored,
    the schema only changes by additions to that name, and its initialiser has run once. *)
Theorem C27_first_definition_wins : forall cs cs' r name header tb init id r1 r2,
  rexec_all cs empty_registry = Ret r ->
  get_or_create name header tb init r = Ret (id, r1) -> rexec_all cs' r1 = Ret r2 ->
  lookup name r2 = Some id /\
  (forall header' tb' init', get_or_create name header' tb' init' r2 = Ret (id, r2)) /\
  (forallb (fun c => negb (extends name c)) cs' = true -> nth_error (r_schemas r2) id = nth_error (r_schemas r1) id) /\
  (exists s, nth_error (r_schemas r2) id = Some s) /\
  (count_occ (list_eq_dec ascii_dec) (r_inits r2) name = 1)%nat.
Proof. exact first_wins. Qed.
Print Assumptions C27_first_definition_wins.
(** Nothing is found under a name that was never created. *)
Theorem C27_undefined_name : forall cs r name,
  rexec_all cs empty_registry = Ret r -> (forall header tb init, ~ In (R_create name header tb init) cs) -> lookup name r = None.
Proof. exact never_defined. Qed.
Print Assumptions C27_undefined_name.

Definition ex_history : list rcall :=
  [R_create (lit "a") 0 false [A_add (lit "x") (get_dtype (CBase 9))]; R_create (lit "t") 100 true [];
   R_extend (lit "a") (lit "y") (get_dtype (CBase 17)); R_create (lit "a") 0 true []].
Example C27_ex : exists r s, rexec_all ex_history empty_registry = Ret r /\ lookup (lit "a") r = Some 0%nat /\ lookup (lit "t") r = Some 1%nat /\
  lookup (lit "b") r = None /\ nth_error (r_schemas r) 0 = Some s /\ map fst (s_fields s) = [lit "y"; lit "x"] /\ s_table s = false.
Proof. do 2 eexists. split; [vm_compute; reflexivity|]. repeat split. Qed.

(** An initialiser that asks for another schema, even one that exists, never returns. *)
Theorem C27_nested_definition_refuted : forall name header tb acts name' header' tb' init' rest r,
  lookup name r = None -> (forall a, In a acts -> exists n d, a = A_add n d) ->
  get_or_create name header tb (acts ++ A_create name' header' tb' init' :: rest) r = Hang.
Proof.
  intros name header tb acts name' header' tb' init' rest r L A. unfold get_or_create. unfold lookup in L. rewrite L.
  assert (forall s, run_init (acts ++ A_create name' header' tb' init' :: rest) s = Hang) as ->; [|reflexivity].
  revert A. induction acts as [|a acts IH]; intros A s; [reflexivity|]. destruct (A a (or_introl eq_refl)) as (n & d & ->). cbn [app run_init]. apply IH. intros x J. apply A. now right.
Qed.
Print Assumptions C27_nested_definition_refuted.
(** TableSchema::Get of a name that does not exist dereferences a null pointer instead of returning nothing. *)
Theorem C27_unknown_table_refuted : forall name r, lookup name r = None -> table_lookup name r = UB.
Proof. intros name r H. unfold table_lookup. now rewrite H. Qed.
Print Assumptions C27_unknown_table_refuted.
(** After every history in which the name was created, TableSchema::Get finds it exactly if it is a table. *)
Theorem C27_table_found : forall cs r name id, rexec_all cs empty_registry = Ret r -> lookup name r = Some id ->
  exists s, nth_error (r_schemas r) id = Some s /\ table_lookup name r = Ret (if s_table s then Some id else None).
Proof. exact table_found. Qed.
Print Assumptions C27_table_found.
Example C27_ex_table : exists r, rexec_all ex_history empty_registry = Ret r /\ table_lookup (lit "t") r = Ret (Some 1%nat) /\ table_lookup (lit "a") r = Ret None.
Proof. eexists. split; [vm_compute; reflexivity|]. split; vm_compute; reflexivity. Qed.
(** TableSchema::GetOrCreate returns a schema that is no table when the name was first used for an object. *)
Theorem C27_object_as_table_refuted : exists r id s,
  rexec_all [R_create (lit "a") 0 false []] empty_registry = Ret r /\
  get_or_create (lit "a") 100 true [] r = Ret (id, r) /\ nth_error (r_schemas r) id = Some s /\ s_table s = false.
Proof. do 3 eexists. split; [vm_compute; reflexivity|]. split; [vm_compute; reflexivity|]. split; vm_compute; reflexivity. Qed.
Print Assumptions C27_object_as_table_refuted.
