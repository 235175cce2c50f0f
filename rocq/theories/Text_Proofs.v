(** Proofs for Text_Props. *)
From Coq Require Import Ascii String List Bool Arith ZArith Lia.
Import ListNotations.
From Verif Require Import Base Lexer_Model Lexer_Spec Lexer_Proofs Op_Model Number_Model Parser_Model Parser_Spec Parser_Lemmas Parser_Proofs Ir_Model Codegen_Model Codegen_Spec Codegen_Scope Validate_Spec Validate_Model Validate_Proofs Session_Model Session_Proofs Link_Model Link_Spec Link_Proofs Text_Spec Text_Compile Text_Same.
From Verif Require Parser_SoundStmt Parser_CompleteStmt.

(** *** Functions as the compiler has them, and as the grammar has them *)
Definition tree (u : udf) : @fn vty := Fn (u_ret u) (u_name u) (u_params u) (map denote_stmt (u_body u)).
Lemma tree_of f : tree (udf_of f) = denote_func f.
Proof. unfold tree, udf_of, denote_func. cbn [u_ret u_name u_params u_body]. destruct f as [r n [l|] b]; reflexivity. Qed.
Lemma trees_of fs : map tree (map udf_of fs) = map denote_func fs.
Proof. rewrite map_map. apply map_ext. intros f. apply tree_of. Qed.
Lemma defined_lookup us f : forall before, definition_of (map tree before) (map tree us) f = match lookup before us f with Some (known, u) => Some (map tree known, tree u) | None => None end.
Proof.
  induction us as [|u us IH]; intros before; [reflexivity|]. cbn [map definition_of lookup]. change (fn_name (tree u)) with (u_name u).
  replace (map tree before ++ [tree u]) with (map tree (before ++ [u])) by (rewrite map_app; reflexivity). destruct (text_eqb (u_name u) f); [reflexivity|]. apply IH.
Qed.
Lemma defined_first us f : definition_of [] (map tree us) f = match lookup [] us f with Some (known, u) => Some (map tree known, tree u) | None => None end.
Proof. exact (defined_lookup us f []). Qed.
Lemma lookup_callable us f : forall before, match lookup before us f with Some (_, u) => find (fun u => text_eqb (u_name u) f) us = Some u | None => find (fun u => text_eqb (u_name u) f) us = None end.
Proof. induction us as [|u us IH]; intros before; cbn [lookup find]; [reflexivity|]. destruct (text_eqb (u_name u) f); [reflexivity|]. apply IH. Qed.
Lemma in_scope_callable reg us f : in_scope (map tree us) reg f = callable us reg f.
Proof.
  unfold in_scope, callable. rewrite defined_first. pose proof (lookup_callable us f []) as L. destruct (lookup [] us f) as [[known u]|]; rewrite L; reflexivity.
Qed.
Lemma call_meaning {V W} oper conv (ext : text -> W -> list V -> W * V) konst_val truth llvm19 op_fun reg us n : forall f w vs,
  call_of oper conv ext konst_val truth llvm19 op_fun reg (map tree us) n f w vs = meaning oper conv ext konst_val truth llvm19 op_fun reg us n f w vs.
Proof.
  induction n as [|n IH]; intros f w vs; cbn [call_of meaning]; rewrite defined_first; destruct (lookup [] us f) as [[known u]|]; try reflexivity.
  change (length (fn_args (tree u))) with (length (u_params u)). destruct (length vs =? length (u_params u)); [|reflexivity]. apply bind_eq; [|reflexivity].
  apply (run_body_eq oper conv konst_val truth llvm19 op_fun _ _ _ _ (in_scope_callable reg known) IH).
Qed.
(** The linker looks at names and parameters only. *)
Definition declares (x y : udf * cfg) : Prop := u_name (fst x) = u_name (fst y) /\ u_params (fst x) = u_params (fst y) /\ snd x = snd y.
Lemma find_declares f P Q : Forall2 declares P Q ->
  match find (fun x => text_eqb (u_name (fst x)) f) P, find (fun x => text_eqb (u_name (fst x)) f) Q with Some x, Some y => declares x y | None, None => True | _, _ => False end.
Proof. induction 1 as [|x y P Q (E & E1 & E2) _ IH]; cbn [find]; [exact Logic.I|]. rewrite E. destruct (text_eqb (u_name (fst y)) f); [repeat split; assumption|exact IH]. Qed.
Lemma linked_declares {V W} (prim_sem : prim -> list V -> option V) (ext : text -> W -> list V -> W * V) konst_val truth reg P Q : Forall2 declares P Q -> forall n f w vs r,
  linked prim_sem ext konst_val truth reg P n f w vs = Ret r -> linked prim_sem ext konst_val truth reg Q n f w vs = Ret r.
Proof.
  intros D. induction n as [|n IH]; intros f w vs r E; cbn [linked] in *; unfold find_code in *; pose proof (find_declares f P Q D) as F; (destruct (reg f) as [sg|]; [exact E|]);
    destruct (find _ P) as [[u G]|], (find _ Q) as [[u' G']|]; try contradiction; try exact E. destruct F as (_ & Ep & EG). cbn [fst snd] in *. subst G'. rewrite <- Ep. destruct (_ =? _); [|exact E].
  destruct (Ir_Model.call prim_sem (linked prim_sem ext konst_val truth reg P n) konst_val truth vs n G w) as [x| | |] eqn:Ex; try discriminate E.
  rewrite (call_up (linked prim_sem ext konst_val truth reg P n) (linked prim_sem ext konst_val truth reg Q n)) with (n := n) (r := x); [exact E|exact IH|lia|exact Ex].
Qed.
Lemma declarations_of us : forall Fs, Forall2 declares (combine us Fs) (combine (declarations (map tree us)) Fs) /\ Forall2 declares (combine (declarations (map tree us)) Fs) (combine us Fs).
Proof.
  induction us as [|u us IH]; intros [|F Fs]; split; try constructor; try (repeat split); destruct (IH Fs) as [H1 H2]; [exact H1|exact H2].
Qed.

(** *** Types *)
Lemma typed_split op_fun reg us : forall done, well_typed_source op_fun reg done us <->
  (forall before u after, us = before ++ u :: after ->
    well_typed op_fun (callable (done ++ before ++ [u]) reg) (u_ret u) (u_params u) (map denote_stmt (u_body u)) /\ ~ In (u_name u) (map u_name (done ++ before))).
Proof.
  induction us as [|u us IH]; intros done; cbn [well_typed_source].
  - split; [|auto]. intros _ [|? ?] v after E; discriminate E.
  - split.
    + intros (T & N & R) [|v before] x after E; cbn [app] in E; injection E as E1 E2; subst.
      * cbn [app]. rewrite app_nil_r. auto.
      * pose proof (proj1 (IH (done ++ [v])) R before x after eq_refl) as Q. rewrite <- !app_assoc in Q. exact Q.
    + intros H. destruct (H [] u us eq_refl) as [T N]. cbn [app] in T. rewrite app_nil_r in N. split; [exact T|]. split; [exact N|]. apply IH. intros before v after ->. rewrite <- !app_assoc. apply (H (u :: before) v after eq_refl).
Qed.
Lemma NoDup_split {A} (l : list A) : NoDup l <-> forall b x a, l = b ++ x :: a -> ~ In x b.
Proof.
  split.
  - intros H b x a ->. apply NoDup_remove_2 in H. intros I. apply H, in_or_app. now left.
  - induction l as [|y l IH] using rev_ind; intros H; [constructor|]. apply NoDup_Add with (a := y) (l := l).
    + rewrite <- (app_nil_r l) at 1. apply Add_app.
    + split; [|apply (H l y []); reflexivity]. apply IH. intros b x a ->. apply (H b x (a ++ [y])). now rewrite <- app_assoc.
Qed.
Lemma typed_iff op_fun reg us : well_typed_source op_fun reg [] us <-> NoDup (map fn_name (map tree us)) /\ typed_program op_fun reg (map tree us).
Proof.
  rewrite typed_split. rewrite map_map. change (map (fun x => fn_name (tree x)) us) with (map u_name us). split.
  - intros H. split.
    + apply NoDup_split. intros b x a E. apply map_eq_app in E as (l1 & l2 & -> & <- & E). destruct l2 as [|u l2]; [discriminate E|]. cbn [map] in E. injection E as <- <-. apply (H l1 u l2 eq_refl).
    + intros before g after E. apply map_eq_app in E as (l1 & l2 & E1 & <- & E). destruct l2 as [|u l2]; [discriminate E|]. cbn [map] in E. injection E as <- <-.
      destruct (H l1 u l2 E1) as [T _]. change [tree u] with (map tree [u]). rewrite <- map_app. apply (well_typed_eq op_fun _ _ (in_scope_callable reg (l1 ++ [u]))). exact T.
  - intros [N T] before u after ->. split.
    + cbn [app]. specialize (T (map tree before) (tree u) (map tree after)). rewrite map_app in T. specialize (T eq_refl). change [tree u] with (map tree [u]) in T. rewrite <- map_app in T. apply (well_typed_eq op_fun _ _ (in_scope_callable reg (before ++ [u]))) in T. exact T.
    + rewrite map_app in N. cbn [map] in N. cbn [app]. exact (proj1 (NoDup_split _) N _ _ _ eq_refl).
Qed.

(** *** Texts *)
Section Texts.
Variable llvm19 : bool.
Variable op_fun : optok -> vty -> option vty.
Variable reg : text -> option (list vty * vty).
Variable is_type : text -> bool.
Variable type_named : text -> option vty.
Notation answers t s := (fst (answer llvm19 op_fun reg is_type type_named (CompileSource t) s)).
Lemma text_parsed src c e gs : (forall n, type_named (lit ")" ++ n) = None) -> lex_all src = Ret (c ++ [e]) -> Forall (fun t => tk t <> T_ERROR) c -> Program is_type type_named c gs ->
  exists us, parse_source is_type type_named src = Ret us /\ map tree us = gs.
Proof.
  intros Hparen E Hg Hp. pose proof (lex_stream _ _ E) as Hs. destruct (prefix_ok c [e] ltac:(discriminate) Hs Hg) as [Hok Hs'].
  assert (tk e = T_EOF) as He. { destruct Hs' as (b & e' & Eb & He & _). destruct b as [|? [|]]; try discriminate. now injection Eb as <-. }
  destruct (Parser_CompleteStmt.program_complete is_type type_named Hparen c gs Hp Hok e (S (length (c ++ [e]))) He) as (fs & <- & Hf). rewrite app_length. lia.
  exists (map udf_of fs). split; [|apply trees_of]. unfold parse_source. rewrite E. cbn [obind]. rewrite Hf. reflexivity.
Qed.
Lemma parsed_text src us : parse_source is_type type_named src = Ret us ->
  exists c e, lex_all src = Ret (c ++ [e]) /\ tk e = T_EOF /\ (terminated (c ++ [e]) -> Program is_type type_named c (map tree us)).
Proof.
  unfold parse_source. destruct (lex_ret src) as (ts & E & Hs). rewrite E. cbn [obind].
  pose proof (Parser_SoundStmt.funcs_ok is_type type_named (S (length ts)) ts Hs ltac:(lia)) as H. destruct (parse_funcs is_type type_named (S (length ts)) ts) as [x| | |]; try discriminate.
  cbn [obind]. intros [= <-]. destruct H as (c & e & -> & He & Hp). exists c, e. rewrite trees_of. auto.
Qed.
Lemma ordinary_regular us : Forall ordinary (map tree us) -> Forall regular us /\ Forall plain us.
Proof.
  intros H. rewrite Forall_map in H. split; (eapply Forall_impl; [|exact H]); intros u (N & S1 & S2 & S3 & S4); [split; [exact S1|split; [exact S2|split; [exact S3|exact S4]]]|split; [exact S4|split; [exact S1|exact N]]].
Qed.
Lemma new_names us : (forall g, In g (map tree us) -> reg (fn_name g) = None) -> forall u, In u us -> reg (u_name u) = None.
Proof. intros H u I. exact (H (tree u) (in_map tree us u I)). Qed.
Lemma text_compiled src s us : parse_source is_type type_named src = Ret us -> (forall u, In u us -> reg (u_name u) = None) ->
  answers src s = Validate_Model.compile_source llvm19 op_fun reg us.
Proof. intros P N. exact (source_compiled llvm19 op_fun reg us N is_type type_named src s P). Qed.

Variables (src : text) (c : list token) (e : token) (gs : program) (s : session).
Hypothesis paren : forall n, type_named (lit ")" ++ n) = None.
Hypothesis lexed : lex_all src = Ret (c ++ [e]).
Hypothesis clean : Forall (fun t => tk t <> T_ERROR) c.
Hypothesis derived : Program is_type type_named c gs.
Hypothesis fresh : forall g, In g gs -> reg (fn_name g) = None.
Hypothesis ord : Forall ordinary gs.
Lemma text_accepts r : library op_fun -> no_operator_names reg -> Forall (fun g => fn_ret g = r) gs ->
  NoDup (map fn_name gs) -> typed_program op_fun reg gs -> exists Fs, answers src s = Ret Fs.
Proof.
  intros lib nops R N T. destruct (text_parsed src c e gs paren lexed clean derived) as (us & P & <-). destruct (ordinary_regular us ord) as [_ Hp]. rewrite Forall_map in R.
  destruct (source_accepts llvm19 op_fun reg lib nops us r Hp R (proj2 (typed_iff op_fun reg us) (conj N T))) as (Fs & E). exists Fs. rewrite (text_compiled src s us P (new_names us fresh)). exact E.
Qed.
Lemma text_accepts_only r Fs : library op_fun -> no_operator_names reg -> Forall (fun g => fn_ret g = r) gs -> Forall (fun g => forallb unconditional_stmt (fn_body g) = true) gs ->
  answers src s = Ret Fs -> NoDup (map fn_name gs) /\ typed_program op_fun reg gs.
Proof.
  intros lib nops R U A. destruct (text_parsed src c e gs paren lexed clean derived) as (us & P & <-). destruct (ordinary_regular us ord) as [_ Hp]. rewrite Forall_map in R, U.
  rewrite (text_compiled src s us P (new_names us fresh)) in A. apply typed_iff. exact (source_accepts_only llvm19 op_fun reg lib nops us r Fs Hp R U A).
Qed.
Lemma text_runs {V W} oper conv (ext : text -> W -> list V -> W * V) konst_val truth Fs : answers src s = Ret Fs ->
  length Fs = length gs /\ forall f w args r,
  (exists n, call_of oper conv ext konst_val truth llvm19 op_fun reg gs n f w args = Ret r) <->
  (exists m, linked (ir_prim oper conv) ext konst_val truth reg (combine (declarations gs) Fs) m f w args = Ret r).
Proof.
  intros A. destruct (text_parsed src c e gs paren lexed clean derived) as (us & P & <-). destruct (ordinary_regular us ord) as [Hr _].
  rewrite (text_compiled src s us P (new_names us fresh)) in A. split.
  - rewrite map_length. exact (same_length oper conv ext konst_val truth llvm19 op_fun reg us Fs A).
  - intros f w args r. pose proof (link_equiv oper conv ext konst_val truth llvm19 op_fun reg us Fs A Hr (new_names us fresh) f w args r) as L. destruct (declarations_of us Fs) as [D1 D2]. split.
    + intros (n & H). rewrite call_meaning in H. destruct (proj1 L) as (m & Hm); [now exists n|]. exists m. exact (linked_declares _ _ _ _ _ _ _ D1 m f w args r Hm).
    + intros (m & H). apply (linked_declares _ _ _ _ _ _ _ D2) in H. destruct (proj2 L) as (n & Hn); [now exists m|]. exists n. now rewrite call_meaning.
Qed.
End Texts.
(** *** Instances *)
Fixpoint stops (ts : list token) : bool :=
  match ts with
  | [] => true
  | t :: s => (if tkind_eq_dec (tk t) T_BREAK then false else if tkind_eq_dec (tk t) T_CONTINUE then false else true) || match s with u :: _ => if tkind_eq_dec (tk u) T_SEMICOLON then true else false | [] => false end
  end && match ts with [] => true | _ :: s => stops s end.
Lemma stops_terminated ts : stops ts = true -> terminated ts.
Proof.
  intros H p. revert ts H. induction p as [|x p IH]; intros ts H t s E K; subst ts; cbn [app] in H.
  - cbn [stops] in H. apply andb_prop in H as [H _]. apply orb_prop in H as [H|H].
    + destruct K as [K|K]; [pose proof (kw_kind _ _ K T_BREAK ltac:(in_table)) as Q|pose proof (kw_kind _ _ K T_CONTINUE ltac:(in_table)) as Q]; rewrite Q in H; discriminate H.
    + destruct s as [|u s]; [discriminate H|]. destruct (tkind_eq_dec (tk u) T_SEMICOLON) as [Q|]; [|discriminate H]. exists u, s. split; [reflexivity|]. apply (sym_of _ T_SEMICOLON); [in_table|exact Q].
  - cbn [stops] in H. apply andb_prop in H as [_ H]. exact (IH _ H t s eq_refl K).
Qed.
Lemma accepted_text llvm19 op_fun reg is_type type_named s src Fs : fst (answer llvm19 op_fun reg is_type type_named (CompileSource src) s) = Ret Fs ->
  exists c e gs, lex_all src = Ret (c ++ [e]) /\ tk e = T_EOF /\ length Fs = length gs /\ (terminated (c ++ [e]) -> Program is_type type_named c gs).
Proof.
  cbn [answer]. unfold Session_Model.compile_source. destruct (parse_source is_type type_named src) as [us| | |] eqn:P; try discriminate. intros A.
  destruct (parsed_text is_type type_named src us P) as (c & e & L & E & H). exists c, e, (map tree us). split; [exact L|]. split; [exact E|]. split; [|exact H].
  destruct (check_functions op_fun reg 0 [] us (clear s)) as [[[]| | |] s']; try discriminate A. cbn [fst] in A. unfold compile_functions in A. revert A.
  generalize (flat_map c_ops (map (fun i => get_context i s') (seq 0 (length us)))), (flat_map c_names (map (fun i => get_context i s') (seq 0 (length us)))), (@nil udf). rewrite map_length. clear. intros ops names. revert Fs.
  induction us as [|u us IH]; intros Fs done A; cbn [build_functions] in A; [now injection A as <-|]. destruct (compile _ _ _ _ _ _) as [F| | |]; try discriminate A. cbn [obind] in A.
  destruct (build_functions llvm19 op_fun reg ops names (done ++ [u]) us) as [Gs| | |] eqn:EB; try discriminate A. cbn [obind] in A. injection A as <-. cbn [length]. f_equal. exact (IH Gs _ EB).
Qed.
Definition no_error (t : token) : bool := if tkind_eq_dec (tk t) T_ERROR then false else true.
Lemma shown is_type type_named src ts us : lex_all src = Ret ts -> parse_source is_type type_named src = Ret us -> forallb no_error ts = true -> stops ts = true ->
  exists c e, lex_all src = Ret (c ++ [e]) /\ Forall (fun t => tk t <> T_ERROR) c /\ Program is_type type_named c (map tree us).
Proof.
  intros L P N S. destruct (parsed_text is_type type_named src us P) as (c & e & L' & _ & H). rewrite L in L'. injection L' as ->. exists c, e. split; [exact L|]. split.
  - rewrite forallb_app in N. apply andb_prop in N as [N _]. rewrite forallb_forall in N. apply Forall_forall. intros t I E. specialize (N t I). unfold no_error in N. rewrite E in N. discriminate N.
  - apply H, stops_terminated, S.
Qed.
