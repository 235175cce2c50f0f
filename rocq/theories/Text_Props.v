(** C84: from the text of a source to what calls of its functions do. *)
From Coq Require Import Ascii String List Bool Arith ZArith Lia.
Import ListNotations.
From Verif Require Import Base Lexer_Model Op_Model Number_Model Parser_Model Parser_Spec Ir_Model Codegen_Spec Codegen_Scope Validate_Spec Session_Model Link_Model Text_Spec.
From Verif Require Text_Proofs Scalar_Model Codegen_Model.

(** The hypotheses about a text: it is a program [gs] of the grammar; no function has the name of a registered
    function, and all are of the kind considered. *)
Definition is_program (is_type : text -> bool) (type_named : text -> option vty) (src : text) (gs : program) : Prop :=
  exists c e, lex_all src = Ret (c ++ [e]) /\ Forall (fun t => tk t <> T_ERROR) c /\ Program is_type type_named c gs.
Definition new_functions (reg : text -> option (list vty * vty)) (gs : program) : Prop := forall g, In g gs -> reg (fn_name g) = None.

(** What the functions of an accepted text return, and their effects, are what the text says: a call returns a result
    in the meaning of the program exactly if the compiled code returns it. [s]: whatever the compiler has compiled
    before. The arguments: what operators, conversions and registered functions compute. *)
Theorem C84_accepted_texts_run : forall V W (oper : optok -> vty -> list V -> option V) conv (ext : text -> W -> list V -> W * V) konst_val truth
    llvm19 op_fun reg is_type type_named s src gs Fs,
  (forall n, type_named (lit ")" ++ n) = None) ->
  is_program is_type type_named src gs -> new_functions reg gs -> Forall ordinary gs ->
  fst (answer llvm19 op_fun reg is_type type_named (CompileSource src) s) = Ret Fs ->
  length Fs = length gs /\ forall f w args r,
  (exists n, call_of oper conv ext konst_val truth llvm19 op_fun reg gs n f w args = Ret r) <->
  (exists m, linked (ir_prim oper conv) ext konst_val truth reg (combine (declarations gs) Fs) m f w args = Ret r).
Proof.
  intros V W oper conv ext konst_val truth llvm19 op_fun reg is_type type_named s src gs Fs paren (c & e & lexed & clean & derived) fresh ord.
  exact (Text_Proofs.text_runs llvm19 op_fun reg is_type type_named src c e gs s paren lexed clean derived fresh ord oper conv ext konst_val truth Fs).
Qed.
Print Assumptions C84_accepted_texts_run.

(** A program whose functions have the same result type is accepted if they have different names and are well typed; and,
    if it is without ?:, only then. Missing: ?: (C80_branches_of_different_types_refuted), several result types
    (C80_result_types_of_later_functions_refuted). *)
Theorem C84_texts_are_accepted_partial : forall llvm19 op_fun reg is_type type_named s src gs r,
  (forall n, type_named (lit ")" ++ n) = None) -> library op_fun -> no_operator_names reg ->
  is_program is_type type_named src gs -> new_functions reg gs -> Forall ordinary gs -> Forall (fun g => fn_ret g = r) gs ->
  (NoDup (map fn_name gs) -> typed_program op_fun reg gs ->
   exists Fs, fst (answer llvm19 op_fun reg is_type type_named (CompileSource src) s) = Ret Fs) /\
  (Forall (fun g => forallb unconditional_stmt (fn_body g) = true) gs ->
   forall Fs, fst (answer llvm19 op_fun reg is_type type_named (CompileSource src) s) = Ret Fs ->
   NoDup (map fn_name gs) /\ typed_program op_fun reg gs).
Proof.
  intros llvm19 op_fun reg is_type type_named s src gs r paren lib nops (c & e & lexed & clean & derived) fresh ord R. split.
  - exact (Text_Proofs.text_accepts llvm19 op_fun reg is_type type_named src c e gs s paren lexed clean derived fresh ord r lib nops R).
  - intros U Fs. exact (Text_Proofs.text_accepts_only llvm19 op_fun reg is_type type_named src c e gs s paren lexed clean derived fresh ord r Fs lib nops R U).
Qed.
Print Assumptions C84_texts_are_accepted_partial.

(** An accepted text is a program of the grammar, if its break and continue statements have their semicolons
    (see C36). *)
Theorem C84_accepted_texts_are_programs_partial : forall llvm19 op_fun reg is_type type_named s src Fs,
  fst (answer llvm19 op_fun reg is_type type_named (CompileSource src) s) = Ret Fs ->
  exists c e gs, lex_all src = Ret (c ++ [e]) /\ tk e = T_EOF /\ length Fs = length gs /\
  (terminated (c ++ [e]) -> Program is_type type_named c gs).
Proof. exact Text_Proofs.accepted_text. Qed.
Print Assumptions C84_accepted_texts_are_programs_partial.

(** Instances *)
Definition tx_types : list (text * vty) := [(lit "int", TNum I32); (lit "i64", TNum I64); (lit "bool", TBit); (lit "void", TVoid)].
Definition tx_type (t : text) : option vty := find_text tx_types t.
Definition tx_is_type (t : text) : bool := match tx_type t with Some _ => true | None => false end.
Definition tx_none (_ : text) : option (list vty * vty) := None.
Definition tx_lib (_ : optok) (_ : vty) : option vty := None.
Definition tx_source : text := lit
  "int fact(int n) { if (n <= 1) { return 1; } return n * fact(n - 1); }
   int binom(int n, int k) { return fact(n) / (fact(k) * fact(n - k)); }
   int least(int n) { auto k = 0; while (true) { if (binom(2 * k, k) >= n) { break; } k = k + 1; } return k; }".
Definition tx_program : program := Eval vm_compute in match parse_source tx_is_type tx_type tx_source with Ret us => map Text_Proofs.tree us | _ => [] end.
Definition tx_code : list cfg := Eval vm_compute in match fst (answer false tx_lib tx_none tx_is_type tx_type (CompileSource tx_source) new_session) with Ret Fs => Fs | _ => [] end.
Definition tx_call n f args := linked (W := unit) (ir_prim (Scalar_Model.oper (fun _ _ _ => None)) Scalar_Model.cast) (fun _ w _ => (w, Scalar_Model.VInt 0)) Scalar_Model.konst_val Scalar_Model.truth tx_none (combine (declarations tx_program) tx_code) n f tt args.
Definition tx_tokens : list token := Eval vm_compute in match lex_all tx_source with Ret ts => ts | _ => [] end.
Definition tx_udfs : list Validate_Model.udf := Eval vm_compute in match parse_source tx_is_type tx_type tx_source with Ret us => us | _ => [] end.
Lemma tx_is_program : is_program tx_is_type tx_type tx_source tx_program.
Proof.
  apply (Text_Proofs.shown tx_is_type tx_type tx_source tx_tokens tx_udfs); [vm_compute; reflexivity..].
Qed.
Example C84_ex : (forall n, tx_type (lit ")" ++ n) = None) /\ library tx_lib /\ no_operator_names tx_none /\
  is_program tx_is_type tx_type tx_source tx_program /\ length tx_program = 3 /\ new_functions tx_none tx_program /\ Forall ordinary tx_program /\
  Forall (fun g => fn_ret g = TNum I32) tx_program /\ Forall (fun g => forallb unconditional_stmt (fn_body g) = true) tx_program /\
  NoDup (map fn_name tx_program) /\ typed_program tx_lib tx_none tx_program /\ fst (answer false tx_lib tx_none tx_is_type tx_type (CompileSource tx_source) new_session) = Ret tx_code /\
  tx_call 60 (lit "binom") [Scalar_Model.VInt 10; Scalar_Model.VInt 4] = Ret (tt, Scalar_Model.VInt 210) /\
  tx_call 100 (lit "least") [Scalar_Model.VInt 100] = Ret (tt, Scalar_Model.VInt 5).
Proof.
  assert (forall n, tx_type (lit ")" ++ n) = None) as paren by reflexivity. assert (library tx_lib) as lib by discriminate. assert (no_operator_names tx_none) as nops by (intros op; reflexivity).
  assert (new_functions tx_none tx_program) as fresh by (intros g _; reflexivity).
  assert (Forall ordinary tx_program) as ord.
  { apply Forall_forall. intros g [<-|[<-|[<-|[]]]]; (split; [intros []; vm_compute; discriminate|]); (split; [vm_compute; reflexivity|]); (split; [vm_compute; reflexivity|]); (split; [|repeat constructor; discriminate]);
      unfold names_ok; vm_compute; (split; [repeat (apply NoDup_cons; [cbn; intuition discriminate|]); apply NoDup_nil|split; intuition discriminate]). }
  assert (Forall (fun g => fn_ret g = TNum I32) tx_program) as R by repeat constructor.
  assert (Forall (fun g => forallb unconditional_stmt (fn_body g) = true) tx_program) as U by (repeat constructor; vm_compute; reflexivity).
  assert (fst (answer false tx_lib tx_none tx_is_type tx_type (CompileSource tx_source) new_session) = Ret tx_code) as A by (vm_compute; reflexivity).
  destruct (proj2 (C84_texts_are_accepted_partial false tx_lib tx_none tx_is_type tx_type new_session tx_source tx_program (TNum I32) paren lib nops tx_is_program fresh ord R) U tx_code A) as [N T].
  split; [exact paren|]. split; [exact lib|]. split; [exact nops|]. split; [exact tx_is_program|]. split; [reflexivity|]. split; [exact fresh|]. split; [exact ord|]. split; [exact R|]. split; [exact U|].
  split; [exact N|]. split; [exact T|]. split; [exact A|]. split; vm_compute; reflexivity.
Qed.
