(** C91: the memory of a table's column. *)
From Coq Require Import List ZArith Lia Bool.
Import ListNotations.
From Verif Require Import Base ColMem_Model ColMem_Spec ColMem_Proofs.
Local Open Scope Z_scope.

Notation new := ([], new_column).

(** No use of a column touches memory outside its own or deleted memory, whatever new[] finds there, if Set is only given
    vectors in memory of the user. *)
Theorem C91_history_is_defined_partial : forall garbage k l, careful garbage k l new -> exists h c, run garbage k l new = Ret (h, c).
Proof. exact history_defined. Qed.
Print Assumptions C91_history_is_defined_partial.

(** After it, loading the column gives a vector with the field of each row, bools packed into bits included. *)
Theorem C91_loaded_column_has_the_rows_partial : forall garbage k l x h c,
  careful garbage k l new -> run garbage k l new = Ret (h, c) -> rows k x ->
  exists h' c', step garbage k (Load x) (h, c) = Ret (h', c') /\ holds k h' (c_vec c') x.
Proof. exact loaded. Qed.
Print Assumptions C91_loaded_column_has_the_rows_partial.

(** Loading writes to no memory of the user, other than that of the vector the column was Set to. *)
Theorem C91_loading_writes_nowhere_else : forall garbage k l x h c h' c' b y,
  careful garbage k l new -> run garbage k l new = Ret (h, c) -> rows k x -> step garbage k (Load x) (h, c) = Ret (h', c') ->
  nth_error h b = Some y -> b_new y = false -> v_data (c_vec c) <> Some b -> nth_error h' b = Some y.
Proof. exact load_elsewhere. Qed.
Print Assumptions C91_loading_writes_nowhere_else.

(** When the column is destroyed, each block it allocated has been deleted, once (a second delete[] is undefined), and the
    user's memory is as it was. *)
Theorem C91_memory_is_returned_once : forall garbage k l h c, careful garbage k l new -> run garbage k l new = Ret (h, c) ->
  exists h', destroy (h, c) = Ret h' /\ length h' = length h /\
    forall b x, nth_error h b = Some x -> exists y, nth_error h' b = Some y /\ b_new y = b_new x /\ b_freed y = b_new x /\ (b_new x = false -> y = x).
Proof. exact freed_once. Qed.
Print Assumptions C91_memory_is_returned_once.

(** A column that is new, cleared or unloaded has no elements. *)
Theorem C91_empty_column : forall garbage k l h c, run garbage k l new = Ret (h, c) ->
  l = [] \/ (exists l' o, l = l' ++ [o] /\ (o = Clears \/ o = Unloads)) -> holds k h (c_vec c) [].
Proof. exact empty_column. Qed.
Print Assumptions C91_empty_column.

(** A column that is Set to a vector of the user has its elements. *)
Theorem C91_set_column_has_the_elements : forall garbage k l v x h c,
  careful garbage k l new -> run garbage k l new = Ret (h, c) -> in_user_memory k h v -> holds k h v x ->
  exists h' c', step garbage k (Sets v) (h, c) = Ret (h', c') /\ c_vec c' = v /\ holds k h' v x.
Proof. exact set_reads. Qed.
Print Assumptions C91_set_column_has_the_elements.

(** A vector read from a column does not keep its elements: a later load of no more rows replaces them, one by one, and
    leaves the rest. *)
Theorem C91_read_vector_changes_refuted : forall garbage k l x x' h0 c0 h c,
  careful garbage k l new -> run garbage k l new = Ret (h0, c0) -> rows k x -> step garbage k (Load x) (h0, c0) = Ret (h, c) ->
  rows k x' -> (length x' <= length x)%nat ->
  exists h' c', step garbage k (Load x') (h, c) = Ret (h', c') /\ holds k h' (c_vec c) (x' ++ skipn (length x') x).
Proof. exact view_changes. Qed.
Print Assumptions C91_read_vector_changes_refuted.

(** And a load that needs more bytes than the column ever needed leaves it in deleted memory. *)
Theorem C91_read_vector_dangles_refuted : forall garbage k l x x',
  Forall (small k (room k (length x'))) l -> rows k x -> rows k x' -> x <> [] -> room k (length x) < room k (length x') ->
  exists h c h' c', run garbage k (l ++ [Load x]) new = Ret (h, c) /\ holds k h (c_vec c) x /\
    step garbage k (Load x') (h, c) = Ret (h', c') /\ forall i, get k h' (c_vec c) i = UB.
Proof. exact view_dangles. Qed.
Print Assumptions C91_read_vector_dangles_refuted.

(** Set of a column to the vector just read from it deletes the elements, and the next load of no more rows writes to deleted
    memory. *)
Theorem C91_set_to_itself_refuted : forall garbage k l x most,
  Forall (small k most) l -> rows k x -> x <> [] -> room k (length x) < most ->
  exists h c h' c', run garbage k (l ++ [Load x]) new = Ret (h, c) /\ holds k h (c_vec c) x /\
    step garbage k (Sets (c_vec c)) (h, c) = Ret (h', c') /\ (forall i, get k h' (c_vec c') i = UB) /\
    forall x', rows k x' -> x' <> [] -> (length x' <= length x)%nat -> step garbage k (Load x') (h', c') = UB.
Proof. exact set_back. Qed.
Print Assumptions C91_set_to_itself_refuted.

(** A vector in memory of the user does not keep its elements when a column is Set to it, even if it is read-only: loading no
    more rows than it has writes them to its memory, and the column's vector on that memory is writable. *)
Theorem C91_readonly_vector_is_overwritten_refuted : forall garbage k l v x h c,
  careful garbage k l new -> run garbage k l new = Ret (h, c) -> in_user_memory k h v -> rows k x -> Z.of_nat (length x) <= v_size v ->
  exists h1 c1 h2 c2, step garbage k (Sets v) (h, c) = Ret (h1, c1) /\ c_vec c1 = v /\ step garbage k (Load x) (h1, c1) = Ret (h2, c2) /\
    v_data (c_vec c2) = v_data v /\ v_writable (c_vec c2) = true /\ holds k h2 (c_vec c2) x.
Proof. exact readonly_written. Qed.
Print Assumptions C91_readonly_vector_is_overwritten_refuted.

(** Ten bools in memory full of ones; then a vector of the user with eleven, reloaded with twelve rows in the same two
    bytes, then with seventeen in three new ones. *)
Definition ones : nat -> nat -> Z := fun _ _ => 255.
Definition bools (l : list Z) : list cell := map (fun z => CBit (z =? 1)) l.
Definition ten := bools [1; 0; 0; 1; 0; 1; 1; 0; 0; 1].
Definition twelve := bools [0; 1; 1; 0; 1; 0; 0; 1; 1; 0; 0; 1].
Definition seventeen := bools [1; 1; 1; 0; 1; 0; 0; 1; 1; 0; 0; 1; 0; 0; 0; 0; 1].
Definition user_vector := mk_vector (Some 1%nat) 11 11 false.
Definition uses := [Load ten; Unloads; UserMemory [90; 7; 1]; Sets user_vector; Unloads; Load twelve].
Definition elements (k : kind) (w : heap * column) : list (outcome cell) :=
  map (fun i => get k (fst w) (c_vec (snd w)) (Z.of_nat i)) (seq 0 (Z.to_nat (v_size (c_vec (snd w))))).
Example C91_ex_careful : careful ones KBit uses new.
Proof.
  assert (T : forall l, Forall (typed KBit) (bools l)) by (intros l; apply Forall_forall; intros x H; apply in_map_iff in H; destruct H as (z & <- & _); exact I).
  split; [split; [apply T|reflexivity]|]. intros w' E. vm_compute in E. injection E as <-.
  split; [exact I|]. intros w' E. vm_compute in E. injection E as <-.
  split; [repeat constructor; discriminate|]. intros w' E. vm_compute in E. injection E as <-.
  split; [split; [split; [discriminate|reflexivity]|]; exists 1%nat, [90; 7; 1]; split; [reflexivity|]; split; [reflexivity|discriminate]|]. intros w' E. vm_compute in E. injection E as <-.
  split; [exact I|]. intros w' E. vm_compute in E. injection E as <-.
  split; [split; [apply T|reflexivity]|]. intros w' E. exact I.
Qed.
Example C91_ex_run : exists w w', run ones KBit uses new = Ret w /\ elements KBit w = map Ret twelve /\
  map b_bytes (fst w) = [[105; 254]; [150; 9; 1]] /\ map b_freed (fst w) = [true; false] /\
  step ones KBit (Load seventeen) w = Ret w' /\ elements KBit w' = map Ret seventeen /\
  destroy w' = Ret [mk_block [105; 254] true true; mk_block [150; 9; 1] false false; mk_block [151; 9; 255] true true].
Proof. do 2 eexists. repeat split. Qed.
Example C91_ex_numbers : exists w, run ones (KBytes 2) [Load [CBytes [1; 2]; CBytes [3; 4]; CBytes [5; 6]]; Unloads; Load [CBytes [7; 8]]] new = Ret w /\
  elements (KBytes 2) w = [Ret (CBytes [7; 8])] /\ map b_bytes (fst w) = [[7; 8; 3; 4; 5; 6]].
Proof. eexists. repeat split. Qed.

(** Two 16-bit numbers of the user, read-only; one row is loaded over them. *)
Example C91_ex_readonly :
  let v := mk_vector (Some 0%nat) 2 2 false in
  let l := [UserMemory [1; 2; 3; 4]] in
  careful ones (KBytes 2) l new /\ (exists h c, run ones (KBytes 2) l new = Ret (h, c) /\ in_user_memory (KBytes 2) h v) /\ rows (KBytes 2) [CBytes [9; 8]] /\
  match run ones (KBytes 2) (l ++ [Sets v; Load [CBytes [9; 8]]]) new with
  | Ret (h, c) => h = [mk_block [9; 8; 3; 4] false false] /\ c_vec c = mk_vector (Some 0%nat) 1 2 true
  | _ => False
  end.
Proof.
  cbv zeta. split; [split; [repeat constructor; lia|intros; exact I]|]. split.
  { eexists _, _. split; [reflexivity|]. split; [cbn; lia|]. exists 0%nat, [1; 2; 3; 4]. split; [reflexivity|]. split; [reflexivity|cbn; lia]. }
  split; [split; [repeat constructor; cbn; lia|cbn; lia]|]. vm_compute. split; reflexivity.
Qed.
Example C91_ex_empty : exists h c, run ones KBit [Load (bools [1; 0; 1]); Unloads] new = Ret (h, c) /\ c_vec c = mk_vector (Some 0%nat) 0 3 true.
Proof. eexists _, _. split; vm_compute; reflexivity. Qed.
