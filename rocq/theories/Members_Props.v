(** C74: the members registered for a type are the ones scripts find. *)
From Coq Require Import Ascii String List Bool Arith ZArith Lia.
Import ListNotations.
From Verif Require Import Base Lexer_Model DType_Spec DType_Model Function_Model Names_Spec Members_Spec Members_Model Members_Proofs.
Local Open Scope Z_scope.

(** For types whose description fits in one word (the full claim: every type). After any registrations, the member
    [n] of [t] is absent if nothing was registered under this name; otherwise its field is the first field and its
    method the first method registered for [t] under this name, whatever was registered for other types or names. *)
Theorem C74_first_wins_partial :
  forall os, Forall (registrable plain) os -> forall t n, plain t ->
  match get_member (fst (offer_members os [])) (get_dtype t) n with
  | None => Forall (fun o => ~ a_member t n o) os
  | Some m =>
      Exists (a_member t n) os /\ m_name m = n /\
      match m_field m with
      | None => Forall (fun o => ~ a_field t n o) os
      | Some d => exists f off, first (a_field t n) os (OField t n f off) /\ d = get_dtype f /\ m_offset m = off
      end /\
      match m_func m with
      | None => Forall (fun o => ~ a_method t n o) os
      | Some d => exists by_ptr ret args f, first (a_method t n) os (OMethod t n by_ptr ret args f) /\
          d = Desc n (get_dtype ret) (get_dtype (if by_ptr then CPtr t else t) :: map get_dtype args) f None false
      end
  end.
Proof. exact first_wins. Qed.
Print Assumptions C74_first_wins_partial.

(** A registration reports success exactly if no field (no method) was registered for this type and name before. *)
Theorem C74_reported_partial :
  forall os, Forall (registrable plain) os -> length (snd (offer_members os [])) = length os /\
  forall l1 o l2, os = l1 ++ o :: l2 ->
  (nth (length l1) (snd (offer_members os [])) false = true <-> Forall (fun o' => ~ same_kind o o') l1).
Proof. exact results. Qed.
Print Assumptions C74_reported_partial.

(** The members of a type are listed once each, in the order in which their names were first registered. *)
Theorem C74_listing_partial :
  forall os, Forall (registrable plain) os -> forall t, plain t ->
  match get_members (fst (offer_members os [])) (get_dtype t) with
  | None => Forall (fun o => o_type o <> t) os
  | Some ms => exists ns, new_names t [] os ns /\ ns <> [] /\ NoDup ns /\
      map (fun n => get_member (fst (offer_members os [])) (get_dtype t) n) ns = map Some ms
  end.
Proof. exact listing. Qed.
Print Assumptions C74_listing_partial.

(** Two classes with a member of the same name, a field and a method that share a name, a second field of that name. *)
Definition history : list offer :=
  [OField (CBase 1024) (lit "size") (CBase 9) 8;
   OMethod (CBase 1025) (lit "size") true (CBase 10) [] 4096;
   OMethod (CBase 1024) (lit "size") true (CBase 9) [CBase 17] 8192;
   OField (CBase 1024) (lit "name") (CBase 18) 16;
   OField (CBase 1024) (lit "size") (CBase 11) 48;
   OMethod (CSeq KVector (CBase 9)) (lit "get") false (CBase 9) [CBase 10] 12288].
Example C74_history :
  Forall (registrable plain) history /\ snd (offer_members history []) = [true; true; true; true; false; true] /\
  get_member (fst (offer_members history [])) (get_dtype (CBase 1024)) (lit "size") =
    Some (Member (lit "size") (Some (Desc (lit "size") (get_dtype (CBase 9)) [get_dtype (CPtr (CBase 1024)); get_dtype (CBase 17)] 8192 None false))
      (Some (get_dtype (CBase 9))) 8) /\
  option_map (map m_name) (get_members (fst (offer_members history [])) (get_dtype (CBase 1024))) = Some [lit "size"; lit "name"].
Proof.
  split; [|vm_compute; auto].
  unfold history. repeat apply Forall_cons; try apply Forall_nil;
    (split; [split; [cbn; lia|reflexivity]|split; [intros; discriminate|cbn; lia || exact I]]).
Qed.

(** ** Types described by the same word share their members *)
(** Whatever is registered first for a container of pointers or containers is found for every other such container
    of the same kind: for std::vector<std::vector<float>> one finds the get of std::vector<std::vector<int>>. *)
Theorem C74_containers_refuted :
  forall k t u, supported 2047 t -> supported 2047 u -> compound t = true -> compound u = true ->
  forall os n, get_member (fst (offer_members os [])) (get_dtype (CSeq k u)) n =
               get_member (fst (offer_members os [])) (get_dtype (CSeq k t)) n.
Proof. exact containers_share. Qed.
Print Assumptions C74_containers_refuted.
Example C74_two_vectors :
  let ints := CSeq KVector (CSeq KVector (CBase 9)) in
  let floats := CSeq KVector (CSeq KVector (CBase 13)) in
  let os := [OMethod ints (lit "get") true (CPtr (CSeq KVector (CBase 9))) [CBase 10] 4096;
             OMethod floats (lit "get") true (CPtr (CSeq KVector (CBase 13))) [CBase 10] 8192] in
  snd (offer_members os []) = [true; false] /\
  option_map (fun m => option_map d_func (m_func m)) (get_member (fst (offer_members os [])) (get_dtype floats) (lit "get")) = Some (Some 4096).
Proof. vm_compute. auto. Qed.
