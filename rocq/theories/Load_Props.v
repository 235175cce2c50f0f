(** C42: loading checks signatures. C71: a loaded function stays callable. *)
From Coq Require Import Ascii String List Bool Arith ZArith Lia.
Import ListNotations.
From Verif Require Import Base Lexer_Model DType_Spec DType_Model Load_Spec Load_Model Load_Proofs.

(** The comparison that loading performs is right: it says yes iff the signatures are the same ... *)
Theorem C42_compare_signature :
  forall u s, signature_ok (udf_signature u) -> signature_ok s ->
  exists r, compare_signature u (get_dtype (s_return s)) (map get_dtype (s_args s)) = Ret r /\
    (r = true <-> udf_signature u = s).
Proof. exact compare_signature_ok. Qed.
Print Assumptions C42_compare_signature.

(** ... but its answer is not used. After every history and for every signature [s], loading a function succeeds iff
    the source just compiled has a function of this name. Missing: that it has the signature [s], which is false. *)
Theorem C42_load_by_name_partial :
  forall source functions function expression,
  (forall src us, functions src = Code us \/ functions src = NoCode us -> ok_udfs us) ->
  (forall src u, function src = Code u \/ function src = NoCode u -> signature_ok (udf_signature u)) ->
  forall pre (src : source) us name s es,
  Forall op_ok pre -> ~ In ODropCompiler pre -> signature_ok s ->
  ideal_run source functions function expression (Ideal (Some []) []) pre = Some es -> functions src = Code us ->
  run source functions function expression start (pre ++ [OCompileSource src; OLoad name s]) =
  Ret (es ++ [Done true; Done (match find (fun u => text_eqb (u_name u) name) us with Some _ => true | None => false end)]).
Proof. exact load_any. Qed.
Print Assumptions C42_load_by_name_partial.
(** Compiling a single function as RET(Args...) succeeds for every signature. *)
Theorem C42_compile_signature_refuted :
  forall source functions function expression,
  (forall src us, functions src = Code us \/ functions src = NoCode us -> ok_udfs us) ->
  (forall src u, function src = Code u \/ function src = NoCode u -> signature_ok (udf_signature u)) ->
  forall pre (src : source) u s es,
  Forall op_ok pre -> ~ In ODropCompiler pre -> signature_ok s ->
  ideal_run source functions function expression (Ideal (Some []) []) pre = Some es -> function src = Code u ->
  run source functions function expression start (pre ++ [OCompileFunction src s]) = Ret (es ++ [Done true]).
Proof. exact compile_any. Qed.
Print Assumptions C42_compile_signature_refuted.

(** Two sources: 0 is int f(int) and double g(), 1 is int f(int) alone; the code is 10, 20 and 11. *)
Definition two_functions (src : nat) : built (list udf) :=
  match src with
  | 0 => Code [Udf (lit "f") (CBase 9) (Some [CBase 9]) 10; Udf (lit "g") (CBase 14) None 20]
  | 1 => Code [Udf (lit "f") (CBase 9) (Some [CBase 9]) 11]
  | _ => BadSource
  end.
Definition one_function (src : nat) : built udf := Code (Udf (lit "f") (CBase 9) (Some [CBase 9]) 11).
Definition an_expression (src : nat) (s : signature) : built nat := Code 30.
Example sources_ok :
  (forall src us, two_functions src = Code us \/ two_functions src = NoCode us -> ok_udfs us) /\
  (forall src u, one_function src = Code u \/ one_function src = NoCode u -> signature_ok (udf_signature u)).
Proof.
  split.
  - intros [|[|src]] us [H|H]; try discriminate; injection H as <-; repeat constructor; cbn; lia.
  - intros src u [H|H]; try discriminate. injection H as <-. repeat constructor; cbn; lia.
Qed.
(** int f(int) is loaded as std::string_view(double, double). *)
Theorem C42_signature_refuted :
  exists s, signature_ok s /\ udf_signature (Udf (lit "f") (CBase 9) (Some [CBase 9]) 10) <> s /\
  run nat two_functions one_function an_expression start [OCompileSource 0; OLoad (lit "f") s; OCall 0] =
    Ret [Done true; Done true; Ran 10].
Proof.
  exists (Sig (CBase 16) [CBase 14; CBase 14]). repeat split; try discriminate. repeat constructor; cbn; lia.
Qed.
Print Assumptions C42_signature_refuted.

(** C71: in every program, a variable that holds a loaded function runs the code that was loaded, whatever the
    compiler compiles or loads meanwhile, whatever other variables do, and even after the compiler is gone. *)
Theorem C71_loaded_function_runs :
  forall source functions function expression,
  (forall src us, functions src = Code us \/ functions src = NoCode us -> ok_udfs us) ->
  (forall src u, function src = Code u \/ function src = NoCode u -> signature_ok (udf_signature u)) ->
  forall (os : list (op source)) es, Forall op_ok os ->
  ideal_run source functions function expression (Ideal (Some []) []) os = Some es ->
  run source functions function expression start os = Ret es.
Proof. exact run_ok. Qed.
Print Assumptions C71_loaded_function_runs.
Definition a_program : list (op nat) :=
  let s := Sig (CBase 9) [CBase 9] in
  [OCompileSource 0; OLoad (lit "f") s; OLoad (lit "g") (Sig (CBase 14) []); OLoad (lit "h") s; OCompileSource 1;
   OLoad (lit "g") s; OLoad (lit "f") s; ODefault; OMove 0 3; OMoveNew 1; OCompileSource 7; OLoad (lit "f") s;
   OCompileFunction 1 s; OCompileExpression 5 s; ODropCompiler; OCall 3; OMove 2 3; OCall 3; OCall 4; ODrop 0; ODrop 4;
   OCall 6]%nat.
Example C71_program :
  Forall op_ok a_program /\
  ideal_run nat two_functions one_function an_expression (Ideal (Some []) []) a_program =
  Some [Done true; Done true; Done true; Done false; Done true; Done false; Done true; Done true; Done true; Done true;
        Done false; Done false; Done true; Done true; Done true; Ran 10; Done true; Ran 11; Ran 20; Done true; Done true; Ran 30].
Proof. split; [|vm_compute; reflexivity]. repeat constructor; cbn; lia. Qed.

(** A function moved from keeps the address but not the code: calling it is undefined once the code is freed. *)
Theorem C71_moved_from_refuted :
  let s := Sig (CBase 9) [CBase 9] in
  let pre := [OCompileSource 0; OLoad (lit "f") s; OMoveNew 0]%nat in
  run nat two_functions one_function an_expression start (pre ++ [OCall 0]) = Ret [Done true; Done true; Done true; Ran 10] /\
  run nat two_functions one_function an_expression start (pre ++ [ODrop 1; OCompileSource 1; OCall 0]) = UB.
Proof. split; vm_compute; reflexivity. Qed.
Print Assumptions C71_moved_from_refuted.
