(** C55: the registry of functions. C70: the check of arguments. *)
From Coq Require Import Ascii String List Bool Arith ZArith.
Import ListNotations.
From Verif Require Import Base Lexer_Model DType_Spec DType_Model DynObject_Model Function_Model Registry_Spec
  Registry_Model Registry_Proofs.
Local Open Scope Z_scope.

(** ** C55 *)
(** After every history of registrations: a registration succeeded exactly when it was well formed and its name
    unused; a lookup gives the first well formed registration under the name, as it was registered, with the
    position of its first Context* parameter; a name never registered is not found. *)
Theorem C55_first_registration_wins :
  forall grows os, Forall (fun o => Forall (supported (2 ^ 14 - 1)) (o_args o)) os ->
  exists r oks, run_offers grows os empty_registry = Ret (r, oks) /\ length oks = length os /\
    (forall i o, nth_error os i = Some o -> nth_error oks i = Some (accepted (firstn i os) o)) /\
    (forall name,
      match bound os name with
      | None => get_function name r = None
      | Some o => exists p, get_function name r = Some p /\
          deref p r = Ret (Desc name (get_dtype (o_return o)) (map get_dtype (o_args o)) (o_func o)
                             (first_context (o_args o)) (o_vector o))
      end).
Proof. exact history_ok. Qed.
Print Assumptions C55_first_registration_wins.

(** Two functions named f, a vector function with a bad parameter, a good one with a Context*. *)
Definition four_offers : list offer :=
  [Offer (lit "f") (CBase 9) [CBase 9] 100 false;
   Offer (lit "f") (CBase 13) [CBase 9; CBase 9] 200 false;
   Offer (lit "g") (CBase 1) [CPtr (CBase 13); CBase 13] 300 true;
   Offer (lit "g") (CBase 1) [CPtr (CBase 13); CPtr (CBase 21); CPtr (CBase 13)] 400 true].
Example C55_example :
  Forall (fun o => Forall (supported (2 ^ 14 - 1)) (o_args o)) four_offers /\
  exists r, run_offers (fun n => (n =? 1)%nat) four_offers empty_registry = Ret (r, [true; false; false; true]) /\
    bound four_offers (lit "g") = nth_error four_offers 3 /\
    (exists p, get_function (lit "f") r = Some p /\
      deref p r = Ret (Desc (lit "f") (get_dtype (CBase 9)) [get_dtype (CBase 9)] 100 None false)) /\
    (exists p, get_function (lit "g") r = Some p /\
      deref p r = Ret (Desc (lit "g") (get_dtype (CBase 1))
        (map get_dtype [CPtr (CBase 13); CPtr (CBase 21); CPtr (CBase 13)]) 400 (Some 1%nat) true)).
Proof.
  split; [repeat constructor; cbn; discriminate|].
  eexists. split; [reflexivity|]. split; [reflexivity|].
  split; (eexists; split; reflexivity).
Qed.

(** The number of operands a user gives: without the Context* and without the output of a vector function. *)
Theorem C55_operand_count :
  forall o, Z.of_nat (length (o_args o)) < 2 ^ 32 -> well_formed o = true ->
    operand_count (Desc (o_name o) (get_dtype (o_return o)) (map get_dtype (o_args o)) (o_func o)
                     (first_context (o_args o)) (o_vector o)) =
    Z.of_nat (length (o_args o)) - (match first_context (o_args o) with Some _ => 1 | None => 0 end)
      - (if o_vector o then 1 else 0).
Proof. exact operands_ok. Qed.
Print Assumptions C55_operand_count.

Example C55_example_operands :
  forall o, nth_error four_offers 3 = Some o ->
    well_formed o = true /\ Z.of_nat (length (o_args o)) - 1 - 1 = 1.
Proof. intros o [= <-]. split; reflexivity. Qed.

(** The pointer a lookup returns stays good while later registrations move no functions. The full claim: always. *)
Theorem C55_lookup_pointer_partial :
  forall grows os1 os2 r1 r2 oks1 oks2 name p,
    Forall (fun o => Forall (supported (2 ^ 14 - 1)) (o_args o)) (os1 ++ os2) ->
    run_offers grows os1 empty_registry = Ret (r1, oks1) -> run_offers grows os2 r1 = Ret (r2, oks2) ->
    get_function name r1 = Some p ->
    (forall n, (length (r_descs r1) <= n < length (r_descs r2))%nat -> grows n = false) ->
    deref p r2 = deref p r1.
Proof.
  intros grows os1 os2 r1 r2 oks1 oks2 name p H1 H2 H3 H4.
  exact (proj1 (pointer_ok grows os1 os2 r1 r2 oks1 oks2 name p H1 H2 H3 H4)).
Qed.
Print Assumptions C55_lookup_pointer_partial.

(** The full claim is false: once a registration makes the table grow, the pointer dangles. *)
Theorem C55_lookup_pointer_refuted :
  forall grows os1 os2 r1 r2 oks1 oks2 name p,
    Forall (fun o => Forall (supported (2 ^ 14 - 1)) (o_args o)) (os1 ++ os2) ->
    run_offers grows os1 empty_registry = Ret (r1, oks1) -> run_offers grows os2 r1 = Ret (r2, oks2) ->
    get_function name r1 = Some p ->
    (exists n, (length (r_descs r1) <= n < length (r_descs r2))%nat /\ grows n = true) ->
    deref p r2 = UB.
Proof.
  intros grows os1 os2 r1 r2 oks1 oks2 name p H1 H2 H3 H4.
  exact (proj2 (pointer_ok grows os1 os2 r1 r2 oks1 oks2 name p H1 H2 H3 H4)).
Qed.
Print Assumptions C55_lookup_pointer_refuted.

Example C55_example_pointer :
  exists r1 r2 oks1 oks2 p,
    run_offers (fun n => (n =? 1)%nat) (firstn 2 four_offers) empty_registry = Ret (r1, oks1) /\
    run_offers (fun n => (n =? 1)%nat) (skipn 2 four_offers) r1 = Ret (r2, oks2) /\
    get_function (lit "f") r1 = Some p /\ length (r_descs r1) = 1%nat /\ length (r_descs r2) = 2%nat /\
    deref p r1 <> UB /\ deref p r2 = UB.
Proof. do 5 eexists. repeat split; try reflexivity. discriminate. Qed.

(** ** C70 *)
(** A plain function accepts a list of arguments exactly when there is one for each parameter and each can be
    converted. The full claim: for all types. *)
Theorem C70_arguments_checked_partial :
  forall name ret params func ctx given, Forall tame params -> Forall tame given ->
  exists r, validate_args (Desc name ret (map get_dtype params) func ctx false) (map get_dtype given) = Ret r /\
    (r = true <-> Forall2 convertible given params).
Proof. exact plain_ok. Qed.
Print Assumptions C70_arguments_checked_partial.

Example C70_example :
  let params := [CBase 17; CBase 14; CBase 24; CBase 9] in
  let given := [CPtr (CBase 18); CBase 9; CSeq KSimdVector (CBase 13); CPtr (CBase 20)] in
  Forall tame params /\ Forall tame given /\
  validate_args (Desc (lit "f") (get_dtype (CBase 9)) (map get_dtype params) 0 None false) (map get_dtype given) =
    Ret true /\
  validate_args (Desc (lit "f") (get_dtype (CBase 9)) (map get_dtype params) 0 None false) (map get_dtype params) =
    Ret true /\
  validate_args (Desc (lit "f") (get_dtype (CBase 9)) (map get_dtype given) 0 None false) (map get_dtype params) =
    Ret false.
Proof.
  repeat split; try reflexivity; repeat constructor; cbn; discriminate.
Qed.

(** A vector function with parameters [T*...] and an output accepts, for each parameter, a vector of exactly T or a
    value that can be converted to T. *)
Theorem C70_vector_arguments_checked_partial :
  forall name ret fs out func ctx given,
    Forall tame (map CBase fs) -> Forall tame given -> Z.of_nat (length fs) < 2 ^ 63 ->
  exists r, validate_args (Desc name ret (map get_dtype (map CPtr (map CBase fs) ++ [out])) func ctx true)
              (map get_dtype given) = Ret r /\
    (r = true <-> Forall2 vector_convertible given (map CBase fs)).
Proof. exact vector_ok. Qed.
Print Assumptions C70_vector_arguments_checked_partial.

Example C70_example_vector :
  let f := Desc (lit "f") (get_dtype (CBase 1)) (map get_dtype (map CPtr (map CBase [13; 13]) ++ [CPtr (CBase 13)]))
             0 None true in
  validate_args f (map get_dtype [CSeq KSimdVector (CBase 13); CBase 9]) = Ret true /\
  validate_args f (map get_dtype [CSeq KSimdVector (CBase 14); CBase 9]) = Ret false /\
  validate_args f (map get_dtype [CSeq KSimdVector (CBase 13)]) = Ret false.
Proof. repeat split; reflexivity. Qed.

(** The full claim is false: a void*, or anything else with a void inside, is accepted where any other type is
    expected, *)
Theorem C70_void_pointer_refuted :
  forall a b, supported 2047 a -> supported 2047 b -> hidden_void a = true ->
    can_cast_to (get_dtype a) (get_dtype b) = Ret true.
Proof. exact hidden_void_accepted. Qed.
Print Assumptions C70_void_pointer_refuted.

Example C70_example_void :
  hidden_void (CPtr (CBase 1)) = true /\ ~ convertible (CPtr (CBase 1)) (CBase 9) /\
  can_cast_to (get_dtype (CPtr (CBase 1))) (get_dtype (CBase 9)) = Ret true.
Proof.
  split; [reflexivity|]. split; [|reflexivity]. unfold convertible. cbn.
  intros [X|[X|[[X _]|[[X _]|[[X _]|[X _]]]]]]; discriminate.
Qed.

(** and a pointer to a vector is accepted where a vector is expected. *)
Theorem C70_pointer_to_vector_refuted :
  exists a b, supported 2047 a /\ supported 2047 b /\ ~ convertible a b /\
    can_cast_to (get_dtype a) (get_dtype b) = Ret true.
Proof.
  exists (CPtr (CSeq KSimdVector (CBase 13))), (CBase 24).
  repeat split; try discriminate; try reflexivity. unfold convertible. cbn.
  intros [X|[X|[[X _]|[[X _]|[[X _]|[X _]]]]]]; discriminate.
Qed.
Print Assumptions C70_pointer_to_vector_refuted.
