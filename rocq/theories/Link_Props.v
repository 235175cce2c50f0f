(** C82: functions of a source that call each other, or themselves. *)
From Coq Require Import Ascii String List Bool Arith ZArith Lia.
Import ListNotations.
From Verif Require Import Base Lexer_Model Op_Model Number_Model Parser_Model Parser_Spec Ir_Model Codegen_Spec Codegen_Scope Validate_Spec Validate_Model Link_Model Link_Spec.
From Verif Require Link_Proofs Scalar_Model.

(** A call of a function of an accepted source returns, with some effects, exactly if the source says so: the
    bodies executed one by one, a call standing for the execution of the function of that name. How often a
    function calls itself, and how often its loops go round, is not limited.
    The arguments: what operators, conversions and registered functions compute. *)
Theorem C82_calls_do_what_the_source_says : forall V W (oper : optok -> vty -> list V -> option V) conv (ext : text -> W -> list V -> W * V) konst_val truth
    llvm19 op_fun reg us Fs,
  compile_source llvm19 op_fun reg us = Ret Fs ->
  Forall regular us -> (forall u, In u us -> reg (u_name u) = None) ->
  forall f w args r,
  let source n := meaning oper conv ext konst_val truth llvm19 op_fun reg us n f w args in
  let code m := linked (ir_prim oper conv) ext konst_val truth reg (combine us Fs) m f w args in
  (forall n, source n = Ret r -> exists m0, forall m, m0 <= m -> code m = Ret r) /\
  (forall m, code m = Ret r -> exists n0, forall n, n0 <= n -> source n = Ret r).
Proof.
  intros V W oper conv ext konst_val truth llvm19 op_fun reg us Fs C R N f w args r source code.
  destruct (Link_Proofs.link_equiv oper conv ext konst_val truth llvm19 op_fun reg us Fs C R N f w args r) as [L1 L2]. split.
  - intros n H. destruct L1 as (m & Hm); [now exists n|]. exists m. intros k L. exact (Link_Proofs.linked_grows _ _ _ _ _ _ _ _ m k f w args r L Hm).
  - intros n H. destruct L2 as (m & Hm); [now exists n|]. exists m. intros k L. exact (Link_Proofs.meaning_grows _ _ _ _ _ _ _ _ _ m k f w args r L Hm).
Qed.
Print Assumptions C82_calls_do_what_the_source_says.

(** ... so a call that the source leaves without a result (a division by zero, say, or no end) does not return. *)
Theorem C82_no_result_without_a_reason : forall V W (oper : optok -> vty -> list V -> option V) conv (ext : text -> W -> list V -> W * V) konst_val truth
    llvm19 op_fun reg us Fs,
  compile_source llvm19 op_fun reg us = Ret Fs ->
  Forall regular us -> (forall u, In u us -> reg (u_name u) = None) ->
  forall f w args,
  (forall n r, meaning oper conv ext konst_val truth llvm19 op_fun reg us n f w args <> Ret r) ->
  forall m r, linked (ir_prim oper conv) ext konst_val truth reg (combine us Fs) m f w args <> Ret r.
Proof.
  intros V W oper conv ext konst_val truth llvm19 op_fun reg us Fs C R N f w args H m r E.
  destruct (Link_Proofs.linked_meaning oper conv ext konst_val truth llvm19 op_fun reg us Fs C R N m f w args r E) as (n & Hn). exact (H n r Hn).
Qed.
Print Assumptions C82_no_result_without_a_reason.

(** A function that returns an expression with a call of itself never returns, wherever the call stands: both sides
    of ?:, && and || are evaluated. In C++ n <= 1 ? 1 : n * fact(n - 1)
    ends. *)
Theorem C82_recursion_inside_an_expression_refuted : forall V W (oper : optok -> vty -> list V -> option V) conv (ext : text -> W -> list V -> W * V) konst_val truth
    llvm19 op_fun reg us Fs u o,
  compile_source llvm19 op_fun reg us = Ret Fs ->
  Forall regular us -> (forall u, In u us -> reg (u_name u) = None) ->
  In u us -> find_text function_operators (u_name u) = None ->
  u_body u = [S_return (Some o)] -> contains_call (u_name u) (denote o) = true ->
  forall m w args r, linked (ir_prim oper conv) ext konst_val truth reg (combine us Fs) m (u_name u) w args <> Ret r.
Proof. exact (@Link_Proofs.endless). Qed.
Print Assumptions C82_recursion_inside_an_expression_refuted.

(** ** Instances, from source text *)
Definition lx_types : list (text * vty) := [(lit "int", TNum I32); (lit "i64", TNum I64); (lit "bool", TBit); (lit "void", TVoid)].
Definition lx_type (t : text) : option vty := find_text lx_types t.
Definition lx_is_type (t : text) : bool := match lx_type t with Some _ => true | None => false end.
Definition lx_parse (t : text) : outcome udf :=
  do! f <- parse_function_ast lx_is_type lx_type t;
  Ret (Udf (f_name f) (f_ret f) (map (fun a => (a_type a, a_name a)) (match Parser_Model.f_args f with Some l => l | None => [] end)) (f_body f)).
Definition lx_none (_ : text) : option (list vty * vty) := None.
Definition lx_lib (_ : optok) (_ : vty) : option vty := None.
Definition lx_oper := Scalar_Model.oper (fun _ _ _ => None).
Definition lx_linked us Fs n f args := linked (W := unit) (ir_prim lx_oper Scalar_Model.cast) (fun _ w _ => (w, Scalar_Model.VInt 0)) Scalar_Model.konst_val Scalar_Model.truth lx_none (combine us Fs) n f tt args.
Definition lx_source : list text :=
  [lit "int fact(int n) { if (n <= 1) { return 1; } return n * fact(n - 1); }"; lit "int binom(int n, int k) { return fact(n) / (fact(k) * fact(n - k)); }"].
Definition lx_udfs : list udf := Eval vm_compute in flat_map (fun t => match lx_parse t with Ret u => [u] | _ => [] end) lx_source.
Definition lx_code : list cfg := Eval vm_compute in match compile_source false lx_lib lx_none lx_udfs with Ret Fs => Fs | _ => [] end.
Example C82_ex : map lx_parse lx_source = map Ret lx_udfs /\ length lx_udfs = 2 /\
  compile_source false lx_lib lx_none lx_udfs = Ret lx_code /\ Forall regular lx_udfs /\ (forall u, In u lx_udfs -> lx_none (u_name u) = None) /\
  lx_linked lx_udfs lx_code 100 (lit "binom") [Scalar_Model.VInt 10; Scalar_Model.VInt 4] = Ret (tt, Scalar_Model.VInt 210).
Proof.
  split; [vm_compute; reflexivity|]. split; [reflexivity|]. split; [vm_compute; reflexivity|]. split; [|split; [reflexivity|vm_compute; reflexivity]].
  repeat constructor; try (vm_compute; reflexivity); try discriminate; unfold names_ok; vm_compute; intuition discriminate.
Qed.
Definition lx_endless : list text := [lit "int fact(int n) { return n <= 1 ? 1 : n * fact(n - 1); }"].
Example C82_ex_endless : exists u o Fs,
  map lx_parse lx_endless = [Ret u] /\ compile_source false lx_lib lx_none [u] = Ret Fs /\ Forall regular [u] /\
  find_text function_operators (u_name u) = None /\ u_body u = [S_return (Some o)] /\ contains_call (u_name u) (denote o) = true /\
  lx_linked [u] Fs 40 (lit "fact") [Scalar_Model.VInt 1] = Hang.
Proof.
  do 3 eexists. split; [vm_compute; reflexivity|]. split; [vm_compute; reflexivity|]. split; [|repeat split; vm_compute; reflexivity].
  repeat constructor; try (vm_compute; reflexivity); try discriminate; unfold names_ok; vm_compute; intuition discriminate.
Qed.
