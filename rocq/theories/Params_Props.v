(** C28: lookup in Params. *)
From Coq Require Import Ascii String List Bool Arith ZArith Lia.
Import ListNotations.
From Verif Require Import Base Lexer_Model Params_Model Params_Spec Params_Proofs.

(** Full statement: looking a name up always returns, with what the nearest of the object and its ancestors
    stores under the name. It holds for all histories of calls without a SetParent that closes a circle
    ([reachable], [careful]); [C28_circle_refuted] shows that the code does not refuse such a call. *)
Theorem C28_lookup_partial : forall h a fuel name,
  reachable h -> a < length h -> length h <= fuel ->
  exists l, chain h a l /\ get fuel h a name = Ret (nearest h l name).
Proof. exact lookup_nearest. Qed.
Print Assumptions C28_lookup_partial.

(** All calls on existing objects return. *)
Theorem C28_calls_return_partial : forall fuel h c,
  reachable h -> on_existing h c -> length h <= fuel -> exists h', exec fuel c h = Ret h'.
Proof. exact (fun fuel h c R => exec_returns fuel h c (reachable_fine h R)). Qed.
Print Assumptions C28_calls_return_partial.

(** After Put, the object and all objects that inherit from it without a nearer value read the new value under
    that name; everything else reads as before, except that the object itself is no plain value any more. *)
Theorem C28_put_then_read_partial : forall h a name v h' b l x fuel,
  reachable h -> put a name v h = Ret h' -> chain h b l -> length h <= fuel ->
  exists r, get fuel h' b x = Ret r /\
    value_of h' r =
      if text_eqb x name && decides h a l name then Some v
      else match nearest h l x with Some c => if c =? a then None else value_of h (Some c) | None => None end.
Proof. exact put_then_read. Qed.
Print Assumptions C28_put_then_read_partial.

(** SetParent(nullptr) drops the ancestors; SetParent(q) adds q and its ancestors behind those there are, unless
    q is among them. *)
Theorem C28_set_parent_partial : forall fuel h a p h' la,
  reachable h -> careful h (C_parent a p) -> chain h a la -> exec fuel (C_parent a p) h = Ret h' ->
  match p with
  | None => chain h' a [a]
  | Some q => exists lq, chain h q lq /\ chain h' a (if in_dec Nat.eq_dec q la then la else la ++ lq)
  end.
Proof. exact set_parent_chain. Qed.
Print Assumptions C28_set_parent_partial.

(** operator[] gives what lookup finds, and otherwise a new member. *)
Theorem C28_reference_partial : forall h a l name fuel c h',
  reachable h -> chain h a l -> length h <= fuel -> index fuel a name h = Ret (c, h') ->
  (forall d n, nearest h l name = Some d -> nth_error h d = Some n -> p_type n <> P_invalid) ->
  match nearest h l name with
  | Some d => c = d /\ h' = h
  | None => get fuel h' a name = Ret (Some c) /\ nth_error h' c = Some fresh
  end.
Proof. exact index_ref. Qed.
Print Assumptions C28_reference_partial.

(** Add appends an empty element and returns it. *)
Theorem C28_add_element : forall h a c h' n,
  reachable h -> nth_error h a = Some n -> add a h = Ret (c, h') ->
  at_index h' a (length (p_array n)) = Ret (Some c) /\ nth_error h' c = Some fresh /\
  (forall j d, nth_error (p_array n) j = Some d -> at_index h' a j = Ret (Some d)) /\
  at_index h' a (S (length (p_array n))) = Ret None.
Proof. exact (fun h a c h' n R => add_ok h a c h' n (f_owned h (reachable_fine h R))). Qed.
Print Assumptions C28_add_element.

(** Contains says whether Get finds something, as long as no object with members was given a plain value or
    an element. *)
Theorem C28_contains_partial : forall h a l name fuel,
  chain h a l -> plain_objects h l -> length l <= fuel ->
  contains fuel h a name = Ret (match nearest h l name with Some _ => true | None => false end) /\
  get fuel h a name = Ret (nearest h l name).
Proof. exact (fun h a l name fuel C P L => conj (contains_chain h a l name C P fuel L) (get_chain h a l name C fuel L)). Qed.
Print Assumptions C28_contains_partial.

(** Asking for an element of an array keeps the elements there are, and the ones it adds are empty. *)
Theorem C28_array_elements : forall h a i c h' n,
  reachable h -> nth_error h a = Some n -> p_type n = P_array -> index_at a i h = Ret (c, h') ->
  at_index h' a i = Ret (Some c) /\
  (forall j d, at_index h a j = Ret (Some d) -> at_index h' a j = Ret (Some d)) /\
  (length (p_array n) <= i -> forall j d, length (p_array n) <= j -> at_index h' a j = Ret (Some d) -> nth_error h' d = Some fresh).
Proof. exact (fun h a i c h' n R => index_at_ok h a i c h' n (f_owned h (reachable_fine h R))). Qed.
Print Assumptions C28_array_elements.

(** ** A history: 0 is the parent of 1; both store x, and 0 stores y. *)
Definition ex_calls : list call :=
  [C_new; C_new; C_put 0 (lit "x") (PInt 1); C_put 0 (lit "y") (PInt 2); C_put 1 (lit "x") (PInt 3); C_parent 1 (Some 0)].
Definition ex_heap : heap := match exec_all 10 ex_calls [] with Ret h => h | _ => [] end.
Lemma ex_reachable : reachable ex_heap.
Proof.
  assert (reachable (match exec_all 10 (firstn 5 ex_calls) [] with Ret h => h | _ => [] end)) as R.
  { apply (reach_all 10 (firstn 5 ex_calls) []); [constructor| |vm_compute; reflexivity]. intros h c I. cbn in I. decompose [or] I; subst; exact Logic.I || contradiction. }
  apply (reach_call 10 (C_parent 1 (Some 0)) _ _ R); [|vm_compute; reflexivity]. intros la lq C1 C0. right. intros J.
  assert (la = [1]) as ->. { apply (chain_fun _ _ _ C1). apply chain_root with (n := PNode P_object [] 0 0 false [(lit "x", 4)] [] None); reflexivity. }
  assert (lq = [0]) as ->. { apply (chain_fun _ _ _ C0). apply chain_root with (n := PNode P_object [] 0 0 false [(lit "y", 3); (lit "x", 2)] [] None); reflexivity. }
  destruct J as [J|[]]. discriminate.
Qed.
Example C28_ex : exists l, chain ex_heap 1 l /\ l = [1; 0] /\
  value_of ex_heap (nearest ex_heap l (lit "x")) = Some (PInt 3) /\ value_of ex_heap (nearest ex_heap l (lit "y")) = Some (PInt 2) /\
  nearest ex_heap l (lit "z") = None /\
  (exists h', put 0 (lit "y") (PBool true) ex_heap = Ret h' /\ decides ex_heap 0 l (lit "y") = true /\ decides ex_heap 0 l (lit "x") = false) /\
  plain_objects ex_heap l.
Proof.
  exists [1; 0]. split.
  { apply chain_up with (n := PNode P_object [] 0 0 false [(lit "x", 4)] [] (Some 0)) (q := 0); [reflexivity..|]. apply chain_root with (n := PNode P_object [] 0 0 false [(lit "y", 3); (lit "x", 2)] [] None); reflexivity. }
  split; [reflexivity|]. split; [vm_compute; reflexivity|]. split; [vm_compute; reflexivity|]. split; [vm_compute; reflexivity|]. split.
  - eexists. split; [vm_compute; reflexivity|]. split; vm_compute; reflexivity.
  - intros a n I H _. cbn in I. decompose [or] I; subst; try contradiction; vm_compute in H; injection H as <-; reflexivity.
Qed.

(** ** What the code gets wrong *)
(** Objects whose parents form a circle: looking up a name that none of them stores never returns. *)
Theorem C28_circle_never_answers : forall h s fuel a name,
  round h s -> In a s -> (forall b, In b s -> own h b name = None) -> get fuel h a name = Hang.
Proof. exact (fun h s fuel a name R => round_hangs h s R fuel a name). Qed.
Print Assumptions C28_circle_never_answers.
(** a.SetParent(b); b.SetParent(a) is accepted. *)
Theorem C28_circle_refuted : exists h,
  exec_all 10 [C_new; C_new; C_parent 0 (Some 1); C_parent 1 (Some 0)] [] = Ret h /\
  forall fuel name, get fuel h 0 name = Hang.
Proof.
  eexists. split; [vm_compute; reflexivity|]. intros fuel name. apply (C28_circle_never_answers _ [0; 1]).
  - intros a [<-|[<-|[]]]; do 2 eexists; cbn; repeat split; auto.
  - now left.
  - intros b [<-|[<-|[]]]; reflexivity.
Qed.
Print Assumptions C28_circle_refuted.
(** child["x"] = 7 writes to the parent when only the parent has x. *)
Theorem C28_write_through_refuted : exists h h' c,
  exec_all 10 [C_new; C_new; C_put 0 (lit "x") (PInt 5); C_parent 1 (Some 0)] [] = Ret h /\
  index 10 1 (lit "x") h = Ret (c, h) /\ set_value c (PInt 7) h = Ret h' /\
  value_of h (nearest h [0] (lit "x")) = Some (PInt 5) /\ value_of h' (nearest h' [0] (lit "x")) = Some (PInt 7).
Proof. do 3 eexists. split; [vm_compute; reflexivity|]. split; [vm_compute; reflexivity|]. split; [vm_compute; reflexivity|]. split; vm_compute; reflexivity. Qed.
Print Assumptions C28_write_through_refuted.
(** Get finds a name that Contains denies. *)
Theorem C28_contains_refuted : exists h c,
  exec_all 10 [C_new; C_put 0 (lit "x") (PInt 5); C_set 0 (PInt 1)] [] = Ret h /\
  get 10 h 0 (lit "x") = Ret (Some c) /\ contains 10 h 0 (lit "x") = Ret false.
Proof. do 2 eexists. split; [vm_compute; reflexivity|]. split; vm_compute; reflexivity. Qed.
Print Assumptions C28_contains_refuted.
(** Asking for element 0 of an array that was used as an object in between drops the other elements. *)
Theorem C28_array_shrinks_refuted : exists h h' c,
  exec_all 10 [C_new; C_add 0; C_add 0; C_put 0 (lit "x") (PInt 5)] [] = Ret h /\
  index_at 0 0 h = Ret (c, h') /\
  (exists n, nth_error h 0 = Some n /\ length (p_array n) = 2) /\ (exists n, nth_error h' 0 = Some n /\ length (p_array n) = 1).
Proof. do 3 eexists. split; [vm_compute; reflexivity|]. split; [vm_compute; reflexivity|]. split; eexists; (split; [vm_compute; reflexivity|reflexivity]). Qed.
Print Assumptions C28_array_shrinks_refuted.
