(** C83: protobuf messages and FlatBuffers objects in UDFs. *)
From Coq Require Import Ascii String List Bool Arith ZArith Lia.
Import ListNotations.
From Verif Require Import Base Lexer_Model Pb_Model Pb_Spec.
From Verif Require Pb_Proofs.
Local Open Scope Z_scope.

Section Statements.
(** Numbers with == and zero, keys of maps with == *)
Context {N K : Type}.
Variable num_eqb : N -> N -> bool.
Variable zero : N.
Variable key_eqb : K -> K -> bool.
Let call := call N num_eqb zero K key_eqb.
Let run := run N num_eqb zero K key_eqb.

(** A UDF that calls methods of messages, in any order, is undefined exactly if at some point it asks a repeated
    field for an element that it does not have, or sets a string through a null pointer. Everything else has a
    result or is an exception. *)
Theorem C83_what_is_undefined : forall (h : heap N K) vs os, nothing_dangles h vs ->
  (run h vs os = UB <->
   exists before i o after h' vs' x,
     os = before ++ (i, o) :: after /\ run h vs before = Ret (h', vs') /\ nth_error vs' i = Some x /\ unchecked h' x o).
Proof. exact (fun h vs os => Pb_Proofs.run_ub num_eqb zero key_eqb os h vs). Qed.

(** Reading leaves all messages as they are. *)
Theorem C83_reading_changes_nothing : forall (h : heap N K) vs os h' vs',
  forallb (fun x => negb (writes (snd x))) os = true -> run h vs os = Ret (h', vs') -> h' = h.
Proof. exact (fun h vs os => Pb_Proofs.run_reads num_eqb zero key_eqb os h vs). Qed.

(** Setting a field changes this field of this message and nothing else. *)
Theorem C83_setting_a_number : forall (h : heap N K) a f n n0, at_field h a f = Some (FNum _ _ n0) ->
  exists h', call h (VMsg _ (Some a)) (SetNum _ _ f n) = Ret (h', VVoid _) /\
  call h' (VMsg _ (Some a)) (Get _ _ f) = Ret (h', VNum _ n) /\
  forall b g, (b, g) <> (a, f) -> at_field h' b g = at_field h b g.
Proof.
  intros h a f n n0 E. destruct (Pb_Proofs.set_num num_eqb zero key_eqb h a f n0 n E) as (h' & Es). exists h'. split; [exact Es|]. pose proof (Pb_Proofs.set_get num_eqb zero key_eqb h a f n h' _ Es) as S. split.
  - apply (Pb_Proofs.get_field num_eqb zero key_eqb h' a f (FNum _ _ n)). rewrite S, Nat.eqb_refl, Pb_Proofs.text_refl. reflexivity.
  - intros b g D. rewrite S. destruct (Nat.eqb b a && text_eqb g f) eqn:Q; [|reflexivity]. apply andb_prop in Q as [Q1 Q2]. apply Nat.eqb_eq in Q1. apply Pb_Proofs.text_eqb_eq in Q2. subst. now elim D.
Qed.
Theorem C83_setting_a_string : forall (h : heap N K) a f t t0, at_field h a f = Some (FStr _ _ t0) ->
  exists h', call h (VMsg _ (Some a)) (SetStr _ _ f t) = Ret (h', VVoid _) /\
  call h' (VMsg _ (Some a)) (Get _ _ f) = Ret (h', VStr _ t) /\
  forall b g, (b, g) <> (a, f) -> at_field h' b g = at_field h b g.
Proof.
  intros h a f t t0 E. assert (exists h', call h (VMsg _ (Some a)) (SetStr _ _ f t) = Ret (h', VVoid _)) as (h' & Es). { unfold at_field in E. unfold call. cbn [Pb_Model.call]. destruct (h a) as [m|]; [|discriminate E]. rewrite E. eauto. }
  exists h'. split; [exact Es|]. pose proof (Pb_Proofs.set_get_str num_eqb zero key_eqb h a f t h' _ Es) as S. split.
  - apply (Pb_Proofs.get_field num_eqb zero key_eqb h' a f (FStr _ _ t)). rewrite S, Nat.eqb_refl, Pb_Proofs.text_refl. reflexivity.
  - intros b g D. rewrite S. destruct (Nat.eqb b a && text_eqb g f) eqn:Q; [|reflexivity]. apply andb_prop in Q as [Q1 Q2]. apply Nat.eqb_eq in Q1. apply Pb_Proofs.text_eqb_eq in Q2. subst. now elim D.
Qed.

(** Maps: get gives the value of the key; zero, the empty string or a null pointer if there is none. *)
Theorem C83_maps : forall (h : heap N K) a f kd l k,
  (forall a b, key_eqb a b = true <-> a = b) -> NoDup (map fst l) -> at_field h a f = Some (FMap _ _ kd l) ->
  let m := VCont _ (Some (a, f)) in
  (forall e, In (k, e) l -> call h m (MapGet _ _ k) = Ret (h, element e) /\ call h m (MapContains _ _ k) = Ret (h, VBool _ true)) /\
  ((forall e, ~ In (k, e) l) ->
   call h m (MapGet _ _ k) = Ret (h, match kd with KNum => VNum _ zero | KStr => VStr _ [] | KMsg => VMsg _ None end) /\
   call h m (MapContains _ _ k) = Ret (h, VBool _ false)) /\
  call h m (MapSize _ _) = Ret (h, VInt _ (Z.of_nat (length l))).
Proof.
  intros h a f kd l k keys D E m. subst m. pose proof (Pb_Proofs.find_key key_eqb keys l k D) as F. unfold at_field in E. unfold call. cbn [Pb_Model.call container]. destruct (h a) as [x|]; [|discriminate E]. rewrite E. cbn [obind].
  destruct (find (fun y => key_eqb (fst y) k) l) as [y|]; (split; [|split; [|reflexivity]]).
  - intros e H. apply F in H. subst e. auto.
  - intros H. elim (H (snd y)). now apply F.
  - intros e H. now elim (F e).
  - intros _. destruct kd; auto.
Qed.

(** Repeated fields: elements by index, and their number; find gives the first index of an equal element, or -1. *)
Theorem C83_elements : forall (h : heap N K) a f l i e,
  at_field h a f = Some (FRep _ _ l) -> 0 <= i < 2 ^ 31 -> nth_error l (Z.to_nat i) = Some e ->
  call h (VCont _ (Some (a, f))) (RepGet _ _ i) = Ret (h, element e) /\
  call h (VCont _ (Some (a, f))) (RepSize _ _) = Ret (h, VInt _ (Z.of_nat (length l))).
Proof.
  intros h a f l i e E R H. unfold at_field in E. unfold call. cbn [Pb_Model.call container]. destruct (h a) as [x|]; [|discriminate E]. rewrite E. cbn [obind]. cbn zeta. rewrite wraps_id by (unfold in_s; cbn; lia). destruct (Z.ltb_spec i 0); [lia|]. rewrite H. now destruct e.
Qed.
Theorem C83_find : forall (h : heap N K) a f l n, at_field h a f = Some (FRep _ _ (numbers l)) -> Z.of_nat (length l) <= 2 ^ 31 ->
  exists j, call h (VCont _ (Some (a, f))) (RepFind _ _ n) = Ret (h, VInt _ j) /\ call h (VCont _ (Some (a, f))) (RepContains _ _ n) = Ret (h, VBool _ (0 <=? j)) /\
  ((j = -1 /\ Forall (fun m => num_eqb m n = false) l) \/
   (0 <= j /\ exists m, nth_error l (Z.to_nat j) = Some m /\ num_eqb m n = true /\
      forall k m', (k < Z.to_nat j)%nat -> nth_error l k = Some m' -> num_eqb m' n = false)).
Proof. exact (Pb_Proofs.rep_find num_eqb zero key_eqb). Qed.

(** FlatBuffers vectors: an index outside gives zero or a null pointer. *)
Theorem C83_flatbuffers_vectors : forall (h : heap N K) k l i, 0 <= i < 2 ^ 32 ->
  call h (VVec _ (Some (k, l))) (VecGet _ _ i) =
    Ret (h, match nth_error l (Z.to_nat i) with
            | Some e => flat_element e
            | None => match k with KNum => VNum _ zero | KStr => VFStr _ None | KMsg => VMsg _ None end
            end) /\
  call h (VVec _ (Some (k, l))) (VecSize _ _) = Ret (h, VInt _ (Z.of_nat (length l))).
Proof.
  intros h k l i R. split; [|reflexivity]. unfold call. cbn [Pb_Model.call]. cbn zeta. rewrite wrapu_id by (unfold in_u; lia). destruct (Z.leb_spec (Z.of_nat (length l)) i) as [L|L].
  - assert (nth_error l (Z.to_nat i) = None) as -> by (apply nth_error_None; lia). now destruct k.
  - destruct (nth_error l (Z.to_nat i)) eqn:E; [reflexivity|]. apply nth_error_None in E. lia.
Qed.

(** Null pointers: methods of a null message are exceptions, except setting a string; a null container is empty, and
    has no elements to get. *)
Theorem C83_null : forall (h : heap N K) f n k i,
  call h (VMsg _ None) (Get _ _ f) = Err /\ call h (VMsg _ None) (SetNum _ _ f n) = Err /\
  call h (VCont _ None) (MapGet _ _ k) = Err /\ call h (VCont _ None) (RepGet _ _ i) = Err /\ call h (VVec _ None) (VecGet _ _ i) = Err /\
  call h (VCont _ None) (MapSize _ _) = Ret (h, VInt _ 0) /\ call h (VCont _ None) (RepSize _ _) = Ret (h, VInt _ 0) /\ call h (VVec _ None) (VecSize _ _) = Ret (h, VInt _ 0) /\
  call h (VCont _ None) (MapContains _ _ k) = Ret (h, VBool _ false) /\ call h (VCont _ None) (RepContains _ _ n) = Ret (h, VBool _ false).
Proof. intros. repeat split. Qed.
Theorem C83_null_string_setter_refuted : forall (h : heap N K) f t, call h (VMsg _ None) (SetStr _ _ f t) = UB.
Proof. reflexivity. Qed.
Theorem C83_index_outside_refuted : forall (h : heap N K) a f l i, at_field h a f = Some (FRep _ _ l) ->
  in_s 32 i -> ~ (0 <= i < Z.of_nat (length l)) -> call h (VCont _ (Some (a, f))) (RepGet _ _ i) = UB.
Proof.
  intros h a f l i E R O. unfold at_field in E. unfold call. cbn [Pb_Model.call container]. destruct (h a) as [x|]; [|discriminate E]. rewrite E. cbn [obind]. cbn zeta. rewrite wraps_id by (try lia; exact R). destruct (Z.ltb_spec i 0); [reflexivity|].
  assert (nth_error l (Z.to_nat i) = None) as -> by (apply nth_error_None; lia). reflexivity.
Qed.
(** Types of UDFs have no const: what a getter returns can be written to. If two messages have a sub-message that is
    not set, setting a field of the one's sub-message sets it for the other, too: both are read as the default
    instance of the type. *)
Theorem C83_unset_sub_messages_refuted : forall (h : heap N K) x y d sub f n0 n,
  at_field h x sub = Some (FSub _ _ d None) -> at_field h y sub = Some (FSub _ _ d None) -> at_field h d f = Some (FNum _ _ n0) ->
  exists h' vs, run h [VMsg _ (Some x); VMsg _ (Some y)] [(0, Get _ _ sub); (2, SetNum _ _ f n); (1, Get _ _ sub); (4, Get _ _ f)]%nat = Ret (h', vs ++ [VNum _ n]).
Proof. exact (Pb_Proofs.shared num_eqb zero key_eqb). Qed.
End Statements.
Print Assumptions C83_what_is_undefined.
Print Assumptions C83_reading_changes_nothing.
Print Assumptions C83_setting_a_number.
Print Assumptions C83_setting_a_string.
Print Assumptions C83_maps.
Print Assumptions C83_elements.
Print Assumptions C83_find.
Print Assumptions C83_flatbuffers_vectors.
Print Assumptions C83_null.
Print Assumptions C83_null_string_setter_refuted.
Print Assumptions C83_index_outside_refuted.
Print Assumptions C83_unset_sub_messages_refuted.

(** Instances: the messages of docs/ffi.md. 0 and 3: two messages, 1: an item, 2: the default item *)
Definition px_item (n : Z) : message Z text := [(lit "id", FNum _ _ n)].
Definition px_message (n : Z) (it : option addr) : message Z text :=
  [(lit "id", FNum _ _ n); (lit "str", FStr _ _ (lit "hello")); (lit "ids_array", FRep _ _ (numbers [4; 5; 5])); (lit "item", FSub _ _ 2%nat it);
   (lit "item_map", FMap _ _ KMsg [(lit "k0", EMsg _ 1%nat)]); (lit "str_int_map", FMap _ _ KNum [(lit "k0", ENum _ 100); (lit "k1", ENum _ 101)])].
Definition px_heap : heap Z text := fun a =>
  match a with 0%nat => Some (px_message 101 None) | 1%nat => Some (px_item 1001) | 2%nat => Some (px_item 0) | 3%nat => Some (px_message 7 None) | _ => None end.
Definition px_run := run Z Z.eqb 0 text text_eqb px_heap [VMsg _ (Some 0%nat); VMsg _ (Some 3%nat)].
Example C83_ex : nothing_dangles px_heap [VMsg _ (Some 0%nat); VMsg _ (Some 3%nat)] /\
  (forall a b, text_eqb a b = true <-> a = b) /\
  at_field px_heap 0%nat (lit "ids_array") = Some (FRep _ _ (numbers [4; 5; 5])) /\
  at_field px_heap 0%nat (lit "item") = Some (FSub _ _ 2%nat None) /\ at_field px_heap 3%nat (lit "item") = Some (FSub _ _ 2%nat None) /\ at_field px_heap 2%nat (lit "id") = Some (FNum _ _ 0).
Proof.
  split; [|split; [apply Pb_Proofs.text_eqb_eq|repeat split]]. split; [|repeat constructor; discriminate].
  intros [|[|[|[|a]]]] m E; try discriminate E; injection E as <-; repeat constructor; cbn [live_field snd]; try discriminate; repeat constructor; discriminate.
Qed.
(** x.item_map().get("k0").id(), the same with a missing key, and x.ids_array().get(3) *)
Example C83_ex_runs :
  (exists vs, px_run [(0, Get _ _ (lit "item_map")); (2, MapGet _ _ (lit "k0")); (3, Get _ _ (lit "id"))]%nat = Ret (px_heap, vs ++ [VNum _ 1001])) /\
  px_run [(0, Get _ _ (lit "item_map")); (2, MapGet _ _ (lit "k1")); (3, Get _ _ (lit "id"))]%nat = Err /\
  px_run [(0, Get _ _ (lit "ids_array")); (2, RepGet _ _ 3)]%nat = UB.
Proof. split; [|split; reflexivity]. eexists [_; _; _; _]. reflexivity. Qed.
