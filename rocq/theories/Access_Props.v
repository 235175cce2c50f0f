(** C75: chains of accesses  x.a.b(c)["k"]  mean what the registered members say. *)
From Coq Require Import Ascii String List Bool Arith ZArith Lia.
Import ListNotations.
From Verif Require Import Base Lexer_Model DType_Spec DType_Model Function_Model Names_Spec Names_Model Members_Spec Members_Model
  Access_Spec Access_Model Access_Proofs AccessTotal_Spec AccessTotal_Proofs.
Local Open Scope Z_scope.

(** Not for every type, registration and chain (the full claim): for plain types, without fields of type bool, with
    brackets before the first field or method only, and with methods whose linker names differ. Then an accepted
    chain on an object of type [t] at [w] takes exactly the steps of the chain: it reads the fields that were
    registered, and calls the methods that were registered, each with its object, its arguments and the memory that
    the steps before it left. The type found by the checks is the type of the value, or, for a get that returns a
    pointer to a number, the type of that number. *)
Theorem C75_chain_partial :
  forall E arg_ty (arg_value : E -> mem -> outcome (dtype * Z)) var text_word conv ext json F os,
  Forall (ordinary plain) os ->
  (forall d p w m, dtype_eqb d p = Ret true -> conv d p w m = Ret w) ->
  methods_apart (fun t => member_name F (get_dtype t)) json_name os ->
  (forall b, d_name (json b) = json_name b) -> (forall b, d_return (json b) = get_dtype (CPtr (CBase 20))) ->
  forall t w l m T' v m', plain t -> brackets_first l ->
  run_chain arg_ty arg_value var text_word conv ext json F (fst (offer_members os [])) (get_dtype t) w l m = Ret (T', v, m') ->
  exists u, v_ty v = get_dtype u /\
    steps os arg_value (fun k _ => key_means var text_word k) conv ext (fun b => d_args (json b)) (fun b => d_func (json b))
      (t, w, m) l (u, word v m', m') /\
    (T' = get_dtype u \/ exists f, 4 <= f <= 15 /\ u = CPtr (CBase f) /\ T' = get_dtype (CBase f)).
Proof. exact @chain. Qed.
Print Assumptions C75_chain_partial.

(** Assigning to a field at the end of a chain changes the bytes of that field only, and the field has the new value
    afterwards. *)
Theorem C75_assign_partial :
  forall E arg_ty (arg_value : E -> mem -> outcome (dtype * Z)) var text_word conv ext json F os,
  Forall (ordinary plain) os ->
  (forall d p w m, dtype_eqb d p = Ret true -> conv d p w m = Ret w) ->
  methods_apart (fun t => member_name F (get_dtype t)) json_name os ->
  (forall b, d_name (json b) = json_name b) -> (forall b, d_return (json b) = get_dtype (CPtr (CBase 20))) ->
  forall t w l n m T' v m', plain t -> brackets_first (l ++ [AField n]) ->
  run_chain arg_ty arg_value var text_word conv ext json F (fst (offer_members os [])) (get_dtype t) w (l ++ [AField n]) m = Ret (T', v, m') ->
  let step := step os arg_value (fun k _ => key_means var text_word k) conv ext (fun b => d_args (json b)) (fun b => d_func (json b)) in
  let steps := steps os arg_value (fun k _ => key_means var text_word k) conv ext (fun b => d_args (json b)) (fun b => d_func (json b)) in
  exists p w1 f off, steps (t, w, m) l (CPtr p, w1, m') /\ first (a_field p n) os (OField p n f off) /\
    (value_type f -> forall x, exists m2, assign v (get_dtype f) x m' = Ret m2 /\
       let a := (w1 + off) mod 2 ^ 64 in
       (forall b, b < a \/ a + Z.of_nat (size_in_bytes f) <= b -> m2 b = m' b) /\
       step (CPtr p, w1, m2) (AField n) (f, x mod 256 ^ Z.of_nat (size_in_bytes f), m2)).
Proof. exact @assign_field. Qed.
Print Assumptions C75_assign_partial.

(** The converse: a chain whose steps can be taken is accepted, and gives the value and the memory they end with. The
    types of arguments, variables and parameters are C++ types, and arguments that have values have passed their
    checks. *)
Theorem C75_accepted_partial :
  forall E arg_ty (arg_value : E -> mem -> outcome (dtype * Z)) var text_word conv ext json F os,
  Forall (ordinary plain) os ->
  (forall b, d_name (json b) = json_name b) -> (forall b, d_return (json b) = get_dtype (CPtr (CBase 20))) ->
  (forall e m d w, arg_value e m = Ret (d, w) -> sized d) -> (forall x d w, var x = Some (d, w) -> sized d) ->
  (forall b, Forall sized (d_args (json b))) ->
  (forall t n b ret args f, In (OMethod t n b ret args f) os -> Forall (supported 2047) args) ->
  (forall d p w m, dtype_eqb d p = Ret true -> conv d p w m = Ret w) ->
  methods_apart (fun t => member_name F (get_dtype t)) json_name os ->
  (forall e m v, arg_value e m = Ret v -> arg_ty e <> None) ->
  forall t w l m u x m', plain t -> brackets_first l ->
  steps os arg_value (fun k _ => key_means var text_word k) conv ext (fun b => d_args (json b)) (fun b => d_func (json b))
    (t, w, m) l (u, x, m') ->
  exists T' v, run_chain arg_ty arg_value var text_word conv ext json F (fst (offer_members os [])) (get_dtype t) w l m = Ret (T', v, m') /\
    v_ty v = get_dtype u /\ word v m' = x.
Proof. exact @chain_accepted. Qed.
Print Assumptions C75_accepted_partial.

(** Whatever the chain and wherever it has brackets: it has a value or it is refused with an error. Undefined
    behaviour comes only from the functions, the conversions and the arguments. *)
Theorem C75_never_undefined :
  forall E arg_ty (arg_value : E -> mem -> outcome (dtype * Z)) var text_word conv ext json F os,
  Forall (ordinary plain) os ->
  (forall b, d_name (json b) = json_name b) -> (forall b, d_return (json b) = get_dtype (CPtr (CBase 20))) ->
  (forall e m d w, arg_value e m = Ret (d, w) -> sized d) -> (forall x d w, var x = Some (d, w) -> sized d) ->
  (forall b, Forall sized (d_args (json b))) ->
  (forall t n b ret args f, In (OMethod t n b ret args f) os -> Forall (supported 2047) args) ->
  (forall e m, defined (arg_value e m)) -> (forall d p w m, defined (conv d p w m)) -> (forall f ws m, defined (ext f ws m)) ->
  forall t w l m, plain t ->
  defined (run_chain arg_ty arg_value var text_word conv ext json F (fst (offer_members os [])) (get_dtype t) w l m).
Proof. exact @chain_defined. Qed.
Print Assumptions C75_never_undefined.

(** A chain is refused exactly if some step of it cannot be taken: a member that was not registered, a wrong number of
    arguments, a failing function. *)
Theorem C75_error_iff_partial :
  forall E arg_ty (arg_value : E -> mem -> outcome (dtype * Z)) var text_word conv ext json F os,
  Forall (ordinary plain) os ->
  (forall b, d_name (json b) = json_name b) -> (forall b, d_return (json b) = get_dtype (CPtr (CBase 20))) ->
  (forall e m d w, arg_value e m = Ret (d, w) -> sized d) -> (forall x d w, var x = Some (d, w) -> sized d) ->
  (forall b, Forall sized (d_args (json b))) ->
  (forall t n b ret args f, In (OMethod t n b ret args f) os -> Forall (supported 2047) args) ->
  (forall d p w m, dtype_eqb d p = Ret true -> conv d p w m = Ret w) ->
  methods_apart (fun t => member_name F (get_dtype t)) json_name os ->
  (forall e m v, arg_value e m = Ret v -> arg_ty e <> None) ->
  forall t w l m,
  (forall e m, defined (arg_value e m)) -> (forall d p w m, defined (conv d p w m)) -> (forall f ws m, defined (ext f ws m)) ->
  plain t -> brackets_first l ->
  (run_chain arg_ty arg_value var text_word conv ext json F (fst (offer_members os [])) (get_dtype t) w l m = Err <->
   forall o, ~ steps os arg_value (fun k _ => key_means var text_word k) conv ext (fun b => d_args (json b)) (fun b => d_func (json b)) (t, w, m) l o).
Proof. exact @error_iff. Qed.
Print Assumptions C75_error_iff_partial.

(** Assigning to the result of a method or of brackets is an error, and so is assigning a value of another type to a
    field. *)
Theorem C75_assign_result :
  forall E arg_ty (arg_value : E -> mem -> outcome (dtype * Z)) var text_word conv ext json F os,
  Forall (ordinary plain) os ->
  (forall b, d_name (json b) = json_name b) -> (forall b, d_return (json b) = get_dtype (CPtr (CBase 20))) ->
  forall t w l a m T' v m', plain t -> (forall n, a <> AField n) ->
  run_chain arg_ty arg_value var text_word conv ext json F (fst (offer_members os [])) (get_dtype t) w (l ++ [a]) m = Ret (T', v, m') ->
  forall src x, sized src -> assign v src x m' = Err.
Proof. exact @assign_result. Qed.
Print Assumptions C75_assign_result.
Theorem C75_assign_type : forall f n a g x m, supported 2047 f -> supported 2047 g -> erase_lengths f <> erase_lengths g ->
  assign (Val (get_dtype f) (InMem n a)) (get_dtype g) x m = Err.
Proof. exact assign_type. Qed.
Print Assumptions C75_assign_type.

(** ** Where the claim fails *)
(** A chain with brackets after a field or a method never has a value, whatever is registered. *)
Theorem C75_late_brackets_refuted :
  forall E arg_ty (arg_value : E -> mem -> outcome (dtype * Z)) var text_word conv ext json F R l1 a l2 T w m r,
  is_index a = false -> Exists (fun b => is_index b = true) l2 ->
  run_chain arg_ty arg_value var text_word conv ext json F R T w (l1 ++ a :: l2) m <> Ret r.
Proof. exact @late_brackets. Qed.
Print Assumptions C75_late_brackets_refuted.

(** A field of type bool is checked as a bool; its value is the address of the field, of type bool*. *)
Theorem C75_bool_field_refuted :
  forall E arg_ty (arg_value : E -> mem -> outcome (dtype * Z)) var text_word conv ext json F os t n off w m,
  Forall (registrable plain) os -> plain (CPtr t) -> first (a_field t n) os (OField t n (CBase 3) off) -> off < 2 ^ 31 ->
  run_chain arg_ty arg_value var text_word conv ext json F (fst (offer_members os [])) (get_dtype (CPtr t)) w [AField n] m =
    Ret (get_dtype (CBase 3), Val (get_dtype (CPtr (CBase 3))) (Imm ((w + off) mod 2 ^ 64)), m).
Proof. exact @bool_field. Qed.
Print Assumptions C75_bool_field_refuted.

(** A new variable that is given the value of a field is another name of the field: assigning to the variable changes
    the object. *)
Theorem C75_alias_refuted :
  forall E arg_ty (arg_value : E -> mem -> outcome (dtype * Z)) var text_word conv ext json F os,
  Forall (ordinary plain) os ->
  (forall d p w m, dtype_eqb d p = Ret true -> conv d p w m = Ret w) ->
  methods_apart (fun t => member_name F (get_dtype t)) json_name os ->
  (forall b, d_name (json b) = json_name b) -> (forall b, d_return (json b) = get_dtype (CPtr (CBase 20))) ->
  forall t w l n m T' v m', plain t -> brackets_first (l ++ [AField n]) ->
  run_chain arg_ty arg_value var text_word conv ext json F (fst (offer_members os [])) (get_dtype t) w (l ++ [AField n]) m = Ret (T', v, m') ->
  let step := step os arg_value (fun k _ => key_means var text_word k) conv ext (fun b => d_args (json b)) (fun b => d_func (json b)) in
  let steps := steps os arg_value (fun k _ => key_means var text_word k) conv ext (fun b => d_args (json b)) (fun b => d_func (json b)) in
  exists p w1 f off, steps (t, w, m) l (CPtr p, w1, m') /\ first (a_field p n) os (OField p n f off) /\
    (value_type f -> forall slot x, exists y m2, define_var slot v m' = Ret (y, m') /\ assign y (get_dtype f) x m' = Ret m2 /\
       step (CPtr p, w1, m2) (AField n) (f, x mod 256 ^ Z.of_nat (size_in_bytes f), m2)).
Proof. exact @alias. Qed.
Print Assumptions C75_alias_refuted.

(** ** Examples *)
Definition node : cpptype := CBase 1024.
Definition point : cpptype := CBase 1025.
Definition shapes : list offer :=
  [OField node (lit "id") (CBase 9) 0;
   OField node (lit "next") (CPtr node) 8;
   OField node (lit "pos") point 16;
   OField point (lit "y") (CBase 9) 4;
   OMethod node (lit "at") true (CPtr node) [CBase 9] 4096;
   OMethod (CSeq KVector node) (lit "get") true (CPtr node) [CBase 10] 8192].
Definition names : factory := fst (add_names (given [(lit "Node", 1024); (lit "Point", 1025)]) no_names).
(** Arguments are numbers; conversions keep the word; at(n, k) counts its calls in byte 500 and gives n + k; get(v, i)
    gives v + 64 i. *)
Definition arg_ty (e : Z) : option dtype := Some (get_dtype (CBase 9)).
Definition arg_value (e : Z) (_ : mem) : outcome (dtype * Z) := Ret (get_dtype (CBase 9), e).
Definition conv (_ _ : dtype) (w : Z) (_ : mem) : outcome Z := Ret w.
Definition ext (f : Z) (ws : list Z) (m : mem) : outcome (Z * mem) :=
  match ws with
  | [a; b] => if f =? 4096 then Ret (a + b, write 1 500 (read 1 500 m + 1) m) else if f =? 8192 then Ret (a + 64 * b, m) else Err
  | _ => Err
  end.
Definition json (by_name : bool) : desc :=
  Desc (json_name by_name) (get_dtype (CPtr (CBase 20))) [get_dtype (CPtr (CBase 20)); get_dtype (CBase (if by_name then 17 else 10))] 16384 None false.
Definition memory : mem := write 8 1136 3000 (write 4 3027 77 (fun _ => 0)).
Definition run (l : list (access Z)) : outcome (dtype * value * mem) :=
  run_chain arg_ty arg_value (fun _ => None) (fun _ => 0) conv ext json names (fst (offer_members shapes [])) (get_dtype (CPtr (CSeq KVector node))) 1000 l memory.
(** v[2].next.at(7).pos.y *)
Definition a_chain : list (access Z) := [AIndex (KNum 2); AField (lit "next"); ACall (lit "at") [7]; AField (lit "pos"); AField (lit "y")].
Example C75_a_chain :
  Forall (ordinary plain) shapes /\ methods_apart (fun t => member_name names (get_dtype t)) json_name shapes /\
  plain (CPtr (CSeq KVector node)) /\ brackets_first a_chain /\
  match run a_chain with
  | Ret (T, v, m) => T = get_dtype (CBase 9) /\ v = Val (get_dtype (CBase 9)) (InMem 4 3027) /\ word v m = 77 /\ m 500 = 1
  | _ => False
  end.
Proof.
  split.
  { unfold shapes, node, point. repeat apply Forall_cons; try apply Forall_nil; (split; [split; [split; [cbn; lia|reflexivity]|split; [intros; discriminate|cbn; lia || exact I]]|]);
      try (split; [split; [cbn; lia|reflexivity]|split; [discriminate|lia]]); split; (cbn; lia) || reflexivity. }
  split.
  { intros t n b ret args f I s N. unfold shapes in I. cbn [In] in I.
    repeat (destruct I as [I|I]; [try discriminate I|]); [| |destruct I]; injection I as <- <- <- <- <- <-; vm_compute in N; injection N as <-;
      (split; [intros []; vm_compute; discriminate|]); intros t' n' b' ret' args' f' I' N';
      unfold shapes in I'; cbn [In] in I'; (repeat (destruct I' as [I'|I']; [try discriminate I'|]); [| |destruct I']); injection I' as <- <- <- <- <- <-;
      try (split; reflexivity); vm_compute in N'; discriminate N'. }
  split; [split; [cbn; lia|reflexivity]|]. split; [cbn; repeat constructor|]. vm_compute. auto.
Qed.
(** node.items[0]: accepted by the checks, no code. *)
Example C75_late_brackets :
  let l := [AField (lit "items"); AIndex (KNum 0)] in
  let R := fst (offer_members (OField node (lit "items") (CPtr (CSeq KVector node)) 24 :: shapes) []) in
  (exists T rs us ns, validate_chain arg_ty (fun _ => None) json names R (get_dtype (CPtr node)) l = Ret (T, rs, us, ns)) /\
  run_chain arg_ty arg_value (fun _ => None) (fun _ => 0) conv ext json names R (get_dtype (CPtr node)) 1000 l memory = Err.
Proof. split; [repeat eexists; vm_compute; reflexivity|vm_compute; reflexivity]. Qed.
Example C75_bool :
  let os := [OField node (lit "on") (CBase 3) 5] in
  Forall (registrable plain) os /\ plain (CPtr node) /\ first (a_field node (lit "on")) os (OField node (lit "on") (CBase 3) 5).
Proof.
  cbn zeta. split; [|split; [split; [cbn; lia|reflexivity]|]].
  - apply Forall_cons; [|apply Forall_nil]. split; [split; [cbn; lia|reflexivity]|split; [intros; discriminate|cbn; lia]].
  - exists [], []. split; [reflexivity|]. split; [repeat eexists|constructor].
Qed.

(** The other hypotheses hold of the functions above; a chain with a step that cannot be taken is refused. *)
Example C75_refusals :
  (forall b, d_name (json b) = json_name b) /\ (forall b, d_return (json b) = get_dtype (CPtr (CBase 20))) /\
  (forall e m d w, arg_value e m = Ret (d, w) -> sized d) /\ (forall b, Forall sized (d_args (json b))) /\
  (forall t n b ret args f, In (OMethod t n b ret args f) shapes -> Forall (supported 2047) args) /\
  (forall d p w m, dtype_eqb d p = Ret true -> conv d p w m = Ret w) /\
  (forall e m v, arg_value e m = Ret v -> arg_ty e <> None) /\
  (forall e m, defined (arg_value e m)) /\ (forall d p w m, defined (conv d p w m)) /\ (forall f ws m, defined (ext f ws m)) /\
  run [AIndex (KNum 2); AField (lit "none")] = Err /\
  run [AIndex (KNum 2); ACall (lit "at") [7; 8]] = Err /\
  run [AField (lit "id")] = Err /\
  match run [AIndex (KNum 2); ACall (lit "at") [7]] with
  | Ret (T, v, m) => v = Val (get_dtype (CPtr node)) (Imm 1135) /\ assign v (get_dtype (CPtr node)) 0 m = Err
  | _ => False
  end.
Proof.
  assert (forall t, supported 2047 t -> sized (get_dtype t)) as S by (intros t H; exists t; auto).
  split; [intros []; reflexivity|]. split; [intros []; reflexivity|].
  split; [intros e m d w [= <- <-]; apply (S (CBase 9)); cbn; lia|].
  split; [intros []; constructor; [apply (S (CPtr (CBase 20))); cbn; lia|constructor; [apply S; cbn; lia|constructor]|apply (S (CPtr (CBase 20))); cbn; lia|constructor; [apply S; cbn; lia|constructor]]|].
  split.
  { intros t n b ret args f I. unfold shapes in I. cbn [In] in I.
    repeat (destruct I as [I|I]; [try discriminate I|]); [| |destruct I]; injection I as <- <- <- <- <- <-; repeat constructor; cbn; lia. }
  split; [reflexivity|]. split; [discriminate|]. split; [intros; exact I|]. split; [intros; exact I|].
  split; [intros f [|a [|b [|c ws]]] m; try exact I; cbn; destruct (f =? 4096); [exact I|]; destruct (f =? 8192); exact I|].
  split; [vm_compute; reflexivity|]. split; [vm_compute; reflexivity|]. split; [vm_compute; reflexivity|]. vm_compute. auto.
Qed.
