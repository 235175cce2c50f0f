(** The theorems about compiled functions, in the form of the properties. *)
From Coq Require Import Ascii String List Bool Arith ZArith Lia.
Import ListNotations.
From Verif Require Import Base Lexer_Model Lexer_Proofs Op_Model Op_Lemmas Number_Model Parser_Model Parser_Spec Parser_Print Ir_Model Codegen_Model Codegen_Spec Codegen_Scope Codegen_Lemmas Codegen_Expr Codegen_Stmt Codegen_Shape Codegen_Flow Codegen_Sim Codegen_Func Codegen_Results.

Lemma typed_total v t : build_typed v t <> Hang.
Proof. unfold build_typed, to_u64. destruct (ty_integer t); [|discriminate]. destruct (dbl_trunc v <? 2 ^ 64)%Z; discriminate. Qed.
Lemma const_total c : build_const c <> Hang.
Proof.
  destruct c as [v [t|]]; unfold build_const; cbn [fst snd]; [apply typed_total|]. unfold build_untyped, to_i64. destruct (dbl_trunc v <? 2 ^ 63)%Z; [|discriminate]. cbn [obind].
  destruct (dbl_eqb _ v); [apply typed_total|discriminate].
Qed.
Section R.
Context {V W : Type}.
Variable oper : optok -> vty -> list V -> option V.
Variable conv : vty -> vty -> V -> option V.
Variable ext : text -> W -> list V -> W * V.
Variable konst_val : konst -> V.
Variable truth : V -> bool.
Variable llvm19 : bool.
Variable op_fun : optok -> vty -> option vty.
Variable fsig : text -> option (list vty * vty).
Notation call args := (@Ir_Model.call V W (ir_prim oper conv) (total ext) konst_val truth args).
Notation run_body := (run_body oper conv (total ext) konst_val truth llvm19 op_fun fsig).
Notation eval := (eval oper conv (total ext) konst_val llvm19 op_fun fsig).
Notation eval_lazy := (eval_lazy oper conv ext konst_val truth llvm19 op_fun fsig).
Notation exec := (exec oper conv (total ext) konst_val truth llvm19 op_fun fsig).
Notation execs := (execs oper conv (total ext) konst_val truth llvm19 op_fun fsig).
Notation compile := (compile llvm19 op_fun fsig).

Lemma call_mono args F m w r : call args m F w = r -> r <> Hang -> forall k, m <= k -> call args k F w = r.
Proof. unfold Ir_Model.call. apply run_mono. Qed.
Lemma call_det args F m m' w r r' : call args m F w = r -> call args m' F w = r' -> r <> Hang -> r' <> Hang -> r = r'.
Proof. intros H1 H2 N1 N2. rewrite <- (call_mono _ _ _ _ _ H1 N1 (m + m')) by lia. apply (call_mono _ _ _ _ _ H2 N2). lia. Qed.

Lemma compile_equiv ret params args body F w : fits params args body -> compile ret params body = Ret F ->
  (forall r, (exists n, run_body ret n params args w (map denote_stmt body) = Ret r) <-> (exists m, call args m F w = Ret r)) /\
  ((exists n, run_body ret n params args w (map denote_stmt body) = UB) <-> (exists m, call args m F w = UB)) /\
  ((forall n, run_body ret n params args w (map denote_stmt body) = Hang) <-> (forall m, call args m F w = Hang)) /\
  (forall n, run_body ret n params args w (map denote_stmt body) <> Err) /\ (forall m, call args m F w <> Err).
Proof.
  intros [H1 H2 H3 H4 H5] H. pose proof (fun n => compile_sim oper conv ext konst_val truth llvm19 op_fun fsig args ret params body F n w H1 H2 H3 H4 H5 H) as S. split; [|split; [|split; [|split]]].
  - intros r. split.
    + intros (n & E). specialize (S n). rewrite E in S. exact S.
    + intros (m & E). exists m. specialize (S m). destruct (run_body ret m params args w (map denote_stmt body)) as [r'| | |]; [| | |congruence]; [|contradiction|].
      * destruct S as (k & Ek). f_equal. assert (Ret r = Ret r') as Q by (eapply call_det; eauto; discriminate). congruence.
      * destruct S as (k & Ek). assert (Ret r = UB) as Q by (eapply call_det; eauto; discriminate). discriminate.
  - split.
    + intros (n & E). specialize (S n). rewrite E in S. exact S.
    + intros (m & E). exists m. specialize (S m). destruct (run_body ret m params args w (map denote_stmt body)) as [r'| | |]; [|contradiction|reflexivity|congruence].
      destruct S as (k & Ek). assert (UB = Ret r') as Q by (eapply call_det; eauto; discriminate). discriminate.
  - split.
    + intros E m. specialize (S m). now rewrite E in S.
    + intros E n. specialize (S n). destruct (run_body ret n params args w (map denote_stmt body)) as [r'| | |]; [|contradiction| |reflexivity]; destruct S as (k & Ek); rewrite E in Ek; discriminate.
  - intros n E. specialize (S n). now rewrite E in S.
  - intros m E. specialize (S m). destruct (run_body ret m params args w (map denote_stmt body)) as [r'| | |]; [| | |congruence]; [|contradiction|]; destruct S as (k & Ek).
    + assert (Err = Ret r') as Q by (eapply call_det; eauto; discriminate). discriminate.
    + assert (@Err (option V * W) = UB) as Q by (eapply call_det; eauto; discriminate). discriminate.
Qed.

(** Evaluation always ends. *)
Lemma eval_total ρ e : forall w, eval ρ w e <> Hang.
Proof.
  assert (forall {A B} (e : outcome A) (f : A -> outcome B), e <> Hang -> (forall a, f a <> Hang) -> obind e f <> Hang) as Ob by (intros A B [] f H1 H2; cbn; auto; discriminate).
  assert (forall x t, convert conv x t <> Hang) as Cv. { intros [s v] t. unfold convert. destruct (vty_eqb s t); [discriminate|]. destruct s, t; try discriminate. destruct (conv (TNum n) (TNum n0) v); discriminate. }
  assert (forall xs t, convert_all conv xs t <> Hang) as Ca. { induction xs; intros t; cbn [convert_all]; [discriminate|]. apply Ob; auto. intros v. apply Ob; auto. discriminate. }
  assert (forall xs ts, convert_each conv xs ts <> Hang) as Ce. { induction xs; intros [|t ts]; cbn [convert_each]; try discriminate. apply Ob; auto. intros v. apply Ob; auto. discriminate. }
  assert (forall {A} (o : option A), typed o <> Hang /\ defined o <> Hang) as Td by (intros A []; split; discriminate).
  assert (forall op xs, apply_op oper conv llvm19 op_fun op xs <> Hang) as Ap. { intros op xs. unfold apply_op. apply Ob; [apply Td|]. intros t. apply Ob; [apply Td|]. intros r. apply Ob; auto. intros vs. apply Ob; [apply Td|]. discriminate. }
  assert (forall c a b, apply_cond oper conv llvm19 op_fun c a b <> Hang) as Ac. { intros c a b. unfold apply_cond. destruct (negb _); [discriminate|]. apply Ob; [apply Td|]. intros t. apply Ob; [apply Td|]. intros r. apply Ob; auto. intros vs. apply Ob; [apply Td|]. discriminate. }
  apply (expr_ind2 (fun e => forall w, eval ρ w e <> Hang) (fun _ => True)); auto; clear e; try (intros; discriminate).
  + intros d ty w. cbn [Codegen_Spec.eval]. apply Ob; [apply const_total|discriminate].
  + intros x w. cbn [Codegen_Spec.eval]. destruct (ρ x) as [[]|]; [discriminate|]. destruct (text_eqb x (lit "pi")); [discriminate|]. destruct (text_eqb x (lit "e")); discriminate.
  + intros f es IH w. rewrite eval_call. apply Ob.
    * revert w. induction IH as [|e es He Hes IH]; intros w; cbn [evals]; [discriminate|]. apply Ob; auto. intros [w1 x]. apply Ob; auto. now intros [w2 xs].
    * intros [w1 xs]. destruct (find_text function_operators f) as [[op k]|]; [apply Ob; auto; discriminate|]. apply Ob; [apply Td|]. intros [ts rt]. apply Ob; auto. intros vs. destruct (ext f w1 vs). discriminate.
  + intros op a IH w. cbn [Codegen_Spec.eval]. apply Ob; auto. intros [w1 x]. apply Ob; auto. discriminate.
  + intros op a b IHa IHb w. cbn [Codegen_Spec.eval]. apply Ob; auto. intros [w1 x]. apply Ob; auto. intros [w2 y]. apply Ob; auto. discriminate.
  + intros c a b IHc IHa IHb w. cbn [Codegen_Spec.eval]. apply Ob; auto. intros [w0 z]. apply Ob; auto. intros [w1 x]. apply Ob; auto. intros [w2 y]. apply Ob; auto. discriminate.
Qed.

(** return e *)
Lemma return_fits params (args : list V) o : NoDup (map snd params) -> ~ In (lit "pi") (map snd params) -> ~ In (lit "e") (map snd params) -> Forall (fun p => fst p <> TVoid) params -> length args = length params ->
  pure (denote o) = true -> fits params args [S_return (Some o)].
Proof. intros H1 H2 H3 H4 H5 H6. constructor; auto; [cbn; now rewrite H6|]. unfold names_ok. cbn. rewrite app_nil_r. auto. Qed.
Lemma return_value ret params args o F w : fits params args [S_return (Some o)] -> compile ret params [S_return (Some o)] = Ret F ->
  match (do! (w', x) <- eval (bind_args params args (fun _ => None)) w (denote o); do! v <- convert conv x ret; Ret (v, w')) with
  | Ret (v, w') => exists m, forall k, m <= k -> call args k F w = Ret (if vty_eqb ret TVoid then None else Some v, w')
  | UB => exists m, forall k, m <= k -> call args k F w = UB
  | _ => False
  end.
Proof.
  intros Hf H. destruct (compile_equiv ret params args _ F w Hf H) as (R & U & D & E & _).
  assert (run_body ret 0 params args w (map denote_stmt [S_return (Some o)]) = do! (w', x) <- eval (bind_args params args (fun _ => None)) w (denote o); do! v <- convert conv x ret; Ret (if vty_eqb ret TVoid then None else Some v, w')) as B.
  { unfold Codegen_Spec.run_body. cbn [map denote_stmt option_map Codegen_Spec.execs Codegen_Spec.exec]. destruct (eval (bind_args params args (fun _ => None)) w (denote o)) as [[w1 x]| | |]; try reflexivity. cbn [obind]. destruct (convert conv x ret); try reflexivity. cbn [obind]. destruct (vty_eqb ret TVoid) eqn:Ev; cbn; rewrite ?Ev; reflexivity. }
  assert (forall e : outcome (option V * W), e <> Hang -> (exists m, call args m F w = e) -> exists m, forall k, m <= k -> call args k F w = e) as Up. { intros e He (m & Em). exists m. intros k Hk. eapply call_mono; eauto. }
  destruct (eval (bind_args params args (fun _ => None)) w (denote o)) as [[w1 x]| | |] eqn:Ev; cbn [obind] in *.
  - destruct (convert conv x ret) as [v| | |] eqn:Ec; cbn [obind] in *.
    + apply Up; [discriminate|]. apply R. exists 0. exact B.
    + exact (E _ B).
    + apply Up; [discriminate|]. apply U. exists 0. exact B.
    + exfalso. unfold convert in Ec. destruct x as [s u]. destruct (vty_eqb s ret); [discriminate|]. destruct s, ret; try discriminate. destruct (conv (TNum n) (TNum n0) u); discriminate.
  - exact (E _ B).
  - apply Up; [discriminate|]. apply U. exists 0. exact B.
  - now apply eval_total in Ev.
Qed.

(** Two return statements *)
Lemma return_blks r σ σ' : build_stmt llvm19 op_fun fsig (S_return r) σ = Ret σ' -> same σ σ' /\ exists xs, blks σ' = emit_at (cur σ) (map Ins xs ++ [Br (exit_b σ)]) (blks σ).
Proof.
  intros H. destruct r as [o|]; cbn [build_stmt] in H.
  - destruct (build_expr llvm19 op_fun fsig o σ) as [[id σ1]| | |] eqn:E1; try discriminate. cbn [obind return_ir] in H. apply iext_expr in E1. destruct (cast_to id (ret_ty σ1) σ1) as [[id2 σ2]| | |] eqn:E2; try discriminate. cbn [obind] in H. apply iext_cast in E2.
    assert (iext σ σ2) as X by (eapply iext_trans; eauto). clear E1 E2.
    assert (exists σ3, iext σ σ3 /\ σ' = put (Br (exit_b σ3)) σ3) as (σ3 & [S3 (xs & B3)] & ->).
    { destruct (ret_slot σ2) as [s|]; [|injection H as <-; eauto]. destruct (load_value id2 σ2) as [[o2 σ3]| | |] eqn:E3; try discriminate. cbn [obind] in H. injection H as <-. apply iext_load in E3. exists (put (Ins (IStore o2 s)) σ3). split.
      - eapply iext_trans; [exact X|]. eapply iext_trans; [exact E3|]. apply iext_put.
      - now rewrite (m_exit _ _ (same_put _ _)). }
    split; [eapply same_trans; [exact S3|apply same_put]|]. exists xs. rewrite blks_put, B3, (m_cur _ _ S3), (m_exit _ _ S3). apply emit_at_app.
  - cbn in H. injection H as <-. split; [apply same_put|]. exists []. now rewrite blks_put.
Qed.
Lemma two_returns ret params r1 r2 F : compile ret params [S_return r1; S_return r2] = Ret F -> well_formed F = false.
Proof.
  intros H. unfold Codegen_Model.compile, build_stmts in H. set (σ := define_function ret params) in *. cbn [build_list] in H. destruct (build_stmt llvm19 op_fun fsig (S_return r1) σ) as [σ1| | |] eqn:E1; try discriminate. cbn [obind] in H.
  destruct (build_stmt llvm19 op_fun fsig (S_return r2) σ1) as [σ2| | |] eqn:E2; try discriminate. cbn [obind] in H. injection H as <-.
  destruct (return_blks _ _ _ E1) as (S1 & xs & B1). destruct (return_blks _ _ _ E2) as (S2 & ys & B2). destruct (define_blks ret params) as (es & A & B & C & D). fold σ in A, B, C, D. rewrite (m_cur _ _ S1), (m_exit _ _ S1), D, B in B2. rewrite B, D, A in B1. cbn in B1. rewrite B1 in B2. cbn in B2.
  assert (cur σ2 = 0) as C2 by (rewrite (m_cur _ _ S2), (m_cur _ _ S1); exact B). assert (exit_b σ2 = 1) as X2 by (rewrite (m_exit _ _ S2), (m_exit _ _ S1); exact D).
  set (l := (map Ins es ++ map Ins xs ++ [Br 1]) ++ map Ins ys ++ [Br 1]) in B2.
  assert (cur_term σ2 = true) as T. { unfold cur_term, block_term, items_of. rewrite C2, B2. cbn [nth_error b_items]. unfold has_term, l. rewrite app_assoc, rev_app_distr. reflexivity. }
  assert (exists b, blks (finish_function σ2) = [Blk true l; b]) as (b & ->).
  { unfold finish_function. rewrite T, X2. unfold set_inserted. rewrite B2. cbn [nth_error set_nth firstn skipn app b_items]. destruct (ret_slot (set_cur 1 (set_blks [Blk true l; Blk true []] σ2))); cbn [new_reg]; rewrite !put_emit; cbn; eauto. }
  unfold well_formed. assert (closed l = false) as Cl.
  { unfold closed. destruct (rev l) as [|i r] eqn:Er; [reflexivity|]. apply andb_false_iff. right. apply not_true_is_false. intros Q. rewrite forallb_forall in Q. assert (rev l = Br 1 :: rev ((map Ins es ++ map Ins xs ++ [Br 1]) ++ map Ins ys)) as El by (unfold l; rewrite app_assoc, rev_app_distr; reflexivity).
    rewrite El in Er. injection Er as <- <-. specialize (Q (Br 1)). assert (negb (is_term (Br 1)) = true) as Q'; [|discriminate]. apply Q. apply -> in_rev. rewrite !in_app_iff. cbn. auto. }
  cbn [forallb b_in b_items negb orb]. rewrite Cl. cbn [andb]. now rewrite andb_false_r.
Qed.

(** Assigning a variable that the result does not depend on *)
Lemma execs_app ret n l1 l2 : forall ρ w, execs ret n ρ w (l1 ++ l2) = do! (g, ρ, w) <- execs ret n ρ w l1; match g with Next => execs ret n ρ w l2 | _ => Ret (g, ρ, w) end.
Proof.
  induction l1 as [|s l1 IH]; intros ρ w; [reflexivity|]. cbn [app]. rewrite !execs_cons. destruct (exec ret n ρ w s) as [[[g ρ1] w1]| | |]; try reflexivity. cbn [obind]. destruct g; try reflexivity. apply IH.
Qed.
Lemma no_calls_world ρ e : no_calls e = true -> forall w w' x, eval ρ w e = Ret (w', x) -> w' = w.
Proof.
  apply (expr_ind2 (fun e => no_calls e = true -> forall w w' x, eval ρ w e = Ret (w', x) -> w' = w) (fun _ => True)); auto; clear e; try (intros; discriminate).
  - intros b _ w w' x H. now injection H.
  - intros d ty _ w w' x H. cbn [Codegen_Spec.eval] in H. destruct (build_const (d, ty)); try discriminate. now injection H.
  - intros y _ w w' x H. cbn [Codegen_Spec.eval] in H. destruct (ρ y) as [[]|]; [now injection H|]. destruct (text_eqb y (lit "pi")); [now injection H|]. destruct (text_eqb y (lit "e")); [now injection H|discriminate].
  - intros f es IH N w w' x H. rewrite eval_call in H. cbn [no_calls] in N. apply andb_true_iff in N as [N1 N2]. destruct (find_text function_operators f) as [[op k]|]; [|discriminate].
    assert (forall w w' xs, evals eval ρ w es = Ret (w', xs) -> w' = w) as Q.
    { clear H w w' x. induction IH as [|e es He Hes IH]; intros w w' xs H; cbn [evals] in H; [now injection H|]. cbn [forallb] in N1. apply andb_true_iff in N1 as [N1 N3]. destruct (eval ρ w e) as [[w1 y]| | |] eqn:E1; try discriminate. cbn [obind] in H. apply He in E1; [|assumption]. subst w1.
      destruct (evals eval ρ w es) as [[w2 ys]| | |] eqn:E2; try discriminate. apply IH in E2; [|assumption]. subst w2. now injection H. }
    destruct (evals eval ρ w es) as [[w1 xs]| | |] eqn:E; try discriminate. apply Q in E. subst w1. cbn [obind] in H. destruct (apply_op oper conv llvm19 op_fun op xs); try discriminate. now injection H.
  - intros op a IH N w w' x H. cbn [Codegen_Spec.eval] in H. destruct (eval ρ w a) as [[w1 y]| | |] eqn:E; try discriminate. apply IH in E; [|assumption]. subst w1. cbn [obind] in H. destruct (apply_op oper conv llvm19 op_fun op [y]); try discriminate. now injection H.
  - intros op a b IHa IHb N w w' x H. cbn [Codegen_Spec.eval] in H. cbn [no_calls] in N. apply andb_true_iff in N as [N1 N2]. destruct (eval ρ w a) as [[w1 y]| | |] eqn:E; try discriminate. apply IHa in E; [|assumption]. subst w1. cbn [obind] in H.
    destruct (eval ρ w b) as [[w1 z]| | |] eqn:E; try discriminate. apply IHb in E; [|assumption]. subst w1. cbn [obind] in H. destruct (apply_op oper conv llvm19 op_fun op [y; z]); try discriminate. now injection H.
  - intros c a b IHc IHa IHb N w w' x H. cbn [Codegen_Spec.eval] in H. cbn [no_calls] in N. apply andb_true_iff in N as [N N3]. apply andb_true_iff in N as [N1 N2]. destruct (eval ρ w c) as [[w1 u]| | |] eqn:E; try discriminate. apply IHc in E; [|assumption]. subst w1. cbn [obind] in H.
    destruct (eval ρ w a) as [[w1 y]| | |] eqn:E; try discriminate. apply IHa in E; [|assumption]. subst w1. cbn [obind] in H. destruct (eval ρ w b) as [[w1 z]| | |] eqn:E; try discriminate. apply IHb in E; [|assumption]. subst w1. cbn [obind] in H. destruct (apply_cond oper conv llvm19 op_fun u y z); try discriminate. now injection H.
Qed.
Lemma assign_frame ret params args pre oa x ox y e F1 F2 w r :
  denote oa = EBin OP_ASSIGN (EVar x) e -> denote ox = EVar y -> x <> y -> no_calls e = true ->
  fits params args (pre ++ [S_expr oa; S_return (Some ox)]) -> fits params args (pre ++ [S_return (Some ox)]) ->
  compile ret params (pre ++ [S_expr oa; S_return (Some ox)]) = Ret F1 -> compile ret params (pre ++ [S_return (Some ox)]) = Ret F2 ->
  (exists m, call args m F2 w = Ret r) -> (exists m, call args m F1 w = Ret r) \/ (exists m, call args m F1 w = UB).
Proof.
  intros Ea Ey Hxy Nc Hf1 Hf2 C1 C2 H. destruct (compile_equiv _ _ _ _ _ w Hf2 C2) as (R2 & _). destruct (compile_equiv _ _ _ _ _ w Hf1 C1) as (R1 & U1 & _ & E1 & _).
  apply R2 in H as (n & H). 
  assert (run_body ret n params args w (map denote_stmt (pre ++ [S_expr oa; S_return (Some ox)])) = Ret r \/ run_body ret n params args w (map denote_stmt (pre ++ [S_expr oa; S_return (Some ox)])) = UB) as [Q|Q]; [|left; apply R1; eauto|right; apply U1; eauto].
  specialize (E1 n). revert H E1. unfold Codegen_Spec.run_body. rewrite !map_app. cbn [map denote_stmt option_map]. rewrite Ea, Ey. rewrite !execs_app. destruct (execs ret n (bind_args params args (fun _ => None)) w (map denote_stmt pre)) as [[[g ρ1] w1]| | |]; cbn [obind]; try discriminate.
  destruct g; cbn [obind]; auto. rewrite (execs_cons oper conv ext konst_val truth llvm19 op_fun fsig ret n ρ1 w1 (StExpr (EBin OP_ASSIGN (EVar x) e))). cbn [Codegen_Spec.exec]. cbn [Codegen_Spec.exec_expr].
  destruct (eval ρ1 w1 e) as [[w2 [t v]]| | |] eqn:Ee; cbn [obind]; try (intros _ Q; now contradiction Q); auto.
  - apply no_calls_world in Ee; [|assumption]. subst w2. destruct (ρ1 x) as [[tx vx]|] eqn:Ex; cbn [defined obind]; auto. destruct (vty_eqb tx t); cbn [obind]; [|intros _ Q; now contradiction Q].
    intros H _. left. rewrite <- H. cbn [Codegen_Spec.execs Codegen_Spec.exec Codegen_Spec.eval]. unfold set_var at 1 2. assert (text_eqb y x = false) as ->. { apply not_true_is_false. intros Q. apply text_eqb_eq in Q. congruence. }
    destruct (ρ1 y) as [[ty vy]|]; cbn [obind]. { destruct (convert conv (ty, vy) ret); reflexivity. }
    destruct (text_eqb y (lit "pi")); cbn [obind]. { destruct (convert conv (TNum F64, konst_val KPi) ret); reflexivity. } destruct (text_eqb y (lit "e")); cbn [obind]; [|reflexivity]. destruct (convert conv (TNum F64, konst_val KE) ret); reflexivity.
  - now apply eval_total in Ee.
Qed.
End R.
