(** More library functions do not change what a function that has a meaning does. *)
From Coq Require Import Ascii String List Bool Arith ZArith Lia.
Import ListNotations.
From Verif Require Import Base Lexer_Model Op_Model Number_Model Parser_Model Parser_Spec Ir_Model Codegen_Model Codegen_Spec Codegen_Scope Codegen_Sim Validate_Model Validate_Spec Validate_Proofs.
From Verif Require Codegen_Results2.

Definition le {A} (a b : outcome A) : Prop := a = Err \/ a = b.
Lemma le_refl {A} (a : outcome A) : le a a.
Proof. now right. Qed.
Lemma le_bind {A B} (a b : outcome A) (f g : A -> outcome B) : le a b -> (forall x, le (f x) (g x)) -> le (do! x <- a; f x) (do! x <- b; g x).
Proof. intros [-> | ->] H; [now left|]. destruct b as [x| | |]; [apply H|now right..]. Qed.

Section More.
Context {V W : Type}.
Variable oper : optok -> vty -> list V -> option V.
Variable conv : vty -> vty -> V -> option V.
Variable ext : text -> W -> list V -> W * V.
Variable konst_val : konst -> V.
Variable truth : V -> bool.
Variable llvm19 : bool.
Variables few many : optok -> vty -> option vty.
Hypothesis more : forall op t r, few op t = Some r -> many op t = Some r.
Variable fsig : text -> option (list vty * vty).
Notation eval o := (eval oper conv (total ext) konst_val llvm19 o fsig).
Notation apply_op o := (apply_op oper conv llvm19 o).
Notation exec_expr o := (exec_expr oper conv (total ext) konst_val llvm19 o fsig).
Notation eval_cond o := (eval_cond oper conv (total ext) konst_val truth llvm19 o fsig).
Notation exec o := (exec oper conv (total ext) konst_val truth llvm19 o fsig).
Notation execs o := (execs oper conv (total ext) konst_val truth llvm19 o fsig).
Lemma result_le op t : le (typed (result_type llvm19 few op t)) (typed (result_type llvm19 many op t)).
Proof.
  unfold result_type. destruct (vty_eqb t TVoid); [now right|]. destruct (core llvm19 op t); [now right|]. destruct (few op t) as [r|] eqn:E; [|now left]. apply more in E. rewrite E. now right.
Qed.
Lemma apply_le op xs : le (apply_op few op xs) (apply_op many op xs).
Proof. unfold Codegen_Spec.apply_op. apply le_bind; [apply le_refl|]. intros t. apply le_bind; [apply result_le|]. intros; apply le_refl. Qed.
Lemma cond_le c a b : le (apply_cond oper conv llvm19 few c a b) (apply_cond oper conv llvm19 many c a b).
Proof. unfold apply_cond. destruct (negb _); [now right|]. apply le_bind; [apply le_refl|]. intros t. apply le_bind; [apply result_le|]. intros; apply le_refl. Qed.
Definition evals (o : optok -> vty -> option vty) (ρ : env) : W -> list expr -> outcome (W * list (vty * V)) :=
  fix evals w es := match es with
    | [] => Ret (w, [])
    | e :: es' => do! (w, x) <- eval o ρ w e; do! (w, xs) <- evals w es'; Ret (w, x :: xs)
    end.
Lemma eval_le ρ e : forall w, le (eval few ρ w e) (eval many ρ w e).
Proof.
  induction e as [b|v ty|t|x|f es IH|n ms|op a IH|op a b IHa IHb|c a b IHc IHa IHb|x|es] using expr_ind1; intros w; try apply le_refl.
  - change (eval few ρ w (ECall f es)) with (do! (w, xs) <- evals few ρ w es; match find_text function_operators f with
      | Some (op, _) => do! r <- apply_op few op xs; Ret (w, r)
      | None => do! (ts, rt) <- typed (fsig f); do! vs <- convert_each conv xs ts; do! (w, v) <- total ext f w vs; Ret (w, (rt, v)) end).
    change (eval many ρ w (ECall f es)) with (do! (w, xs) <- evals many ρ w es; match find_text function_operators f with
      | Some (op, _) => do! r <- apply_op many op xs; Ret (w, r)
      | None => do! (ts, rt) <- typed (fsig f); do! vs <- convert_each conv xs ts; do! (w, v) <- total ext f w vs; Ret (w, (rt, v)) end).
    apply le_bind.
    + clear f. revert w. induction IH as [|e es He _ IHes]; intros w; [apply le_refl|]. change (evals few ρ w (e :: es)) with (do! (w, x) <- eval few ρ w e; do! (w, xs) <- evals few ρ w es; Ret (w, x :: xs)).
      change (evals many ρ w (e :: es)) with (do! (w, x) <- eval many ρ w e; do! (w, xs) <- evals many ρ w es; Ret (w, x :: xs)). apply le_bind; [apply He|]. intros [w1 x]. apply le_bind; [apply IHes|]. intros; apply le_refl.
    + intros [w1 xs]. destruct (find_text function_operators f) as [[op k]|]; [|apply le_refl]. apply le_bind; [apply apply_le|]. intros; apply le_refl.
  - cbn [Codegen_Spec.eval]. apply le_bind; [apply IH|]. intros [w1 x]. apply le_bind; [apply apply_le|]. intros; apply le_refl.
  - cbn [Codegen_Spec.eval]. apply le_bind; [apply IHa|]. intros [w1 x]. apply le_bind; [apply IHb|]. intros [w2 y]. apply le_bind; [apply apply_le|]. intros; apply le_refl.
  - cbn [Codegen_Spec.eval]. apply le_bind; [apply IHc|]. intros [w0 z]. apply le_bind; [apply IHa|]. intros [w1 x]. apply le_bind; [apply IHb|]. intros [w2 y]. apply le_bind; [apply cond_le|]. intros; apply le_refl.
Qed.
Lemma exec_expr_le ρ w e : le (exec_expr few ρ w e) (exec_expr many ρ w e).
Proof.
  assert (forall e, le (do! (w, _) <- eval few ρ w e; Ret (ρ, w)) (do! (w, _) <- eval many ρ w e; Ret (ρ, w))) as D. { intros e0. apply le_bind; [apply eval_le|]. intros; apply le_refl. }
  assert (forall op x b, le (do! (w, y) <- eval few ρ w b; do! (tx, vx) <- defined (ρ x); do! (t, v) <- apply_op few op [(tx, vx); y]; if vty_eqb tx t then Ret (set_var ρ x t v, w) else Err)
                            (do! (w, y) <- eval many ρ w b; do! (tx, vx) <- defined (ρ x); do! (t, v) <- apply_op many op [(tx, vx); y]; if vty_eqb tx t then Ret (set_var ρ x t v, w) else Err)) as C.
  { intros op x b. apply le_bind; [apply eval_le|]. intros [w1 y]. apply le_bind; [apply le_refl|]. intros [tx vx]. apply le_bind; [apply apply_le|]. intros; apply le_refl. }
  destruct e as [| | | | | | | | |op a b|]; try apply D.
  unfold Codegen_Spec.exec_expr. destruct op; try (destruct (find (fun p => optok_eqb (fst p) _) compound) as [[? ?]|]; [|apply D]; destruct a; try apply D; apply C).
  destruct a; try (destruct (find (fun p => optok_eqb (fst p) OP_ASSIGN) compound) as [[? ?]|]; apply D).
  - apply le_bind; [apply eval_le|]. intros; apply le_refl.
  - apply le_bind; [apply eval_le|]. intros; apply le_refl.
Qed.
Lemma eval_cond_le ρ w c : le (eval_cond few ρ w c) (eval_cond many ρ w c).
Proof. unfold Codegen_Spec.eval_cond. apply le_bind; [apply eval_le|]. intros; apply le_refl. Qed.
Variable ret : vty.
Variable n : nat.
Definition le_st (s : st) : Prop := forall ρ w, le (exec few ret n ρ w s) (exec many ret n ρ w s).
Lemma execs_le l : Forall le_st l -> forall ρ w, le (execs few ret n ρ w l) (execs many ret n ρ w l).
Proof.
  induction 1 as [|s l H _ IH]; intros ρ w; [apply le_refl|].
  change (execs few ret n ρ w (s :: l)) with (do! (g, ρ, w) <- exec few ret n ρ w s; match g with Next => execs few ret n ρ w l | _ => Ret (g, ρ, w) end).
  change (execs many ret n ρ w (s :: l)) with (do! (g, ρ, w) <- exec many ret n ρ w s; match g with Next => execs many ret n ρ w l | _ => Ret (g, ρ, w) end).
  apply le_bind; [apply H|]. intros [[g ρ1] w1]. destruct g; try apply le_refl. apply IH.
Qed.
Definition loop (o : optok -> vty -> option vty) (c : expr) (b : list st) : nat -> env -> W -> outcome (signal V * env * W) :=
  fix loop k ρ w := match k with
    | O => Hang
    | S k => do! (w, t) <- eval_cond o ρ w c;
             if negb t then Ret (Next, ρ, w)
             else do! (g, ρ, w) <- execs o ret n ρ w b;
                  match g with Next | Continued => loop k ρ w | Broke => Ret (Next, ρ, w) | Returned v => Ret (Returned v, ρ, w) end
    end.
Definition elifs (o : optok -> vty -> option vty) (el : option (list st)) : env -> W -> list (expr * list st) -> outcome (signal V * env * W) :=
  fix elifs ρ w es := match es with
    | [] => match el with Some b => execs o ret n ρ w b | None => Ret (Next, ρ, w) end
    | (c, b) :: es' => do! (w, t) <- eval_cond o ρ w c; if t then execs o ret n ρ w b else elifs ρ w es'
    end.
Lemma exec_le s : le_st s.
Proof.
  induction s as [e|e|c b IH|c b es el IHb IHes IHel| |] using st_ind2; intros ρ w; try apply le_refl.
  - destruct e as [e|]; [|apply le_refl]. cbn [Codegen_Spec.exec]. apply le_bind; [apply eval_le|]. intros [w1 x]. apply le_refl.
  - cbn [Codegen_Spec.exec]. apply le_bind; [apply exec_expr_le|]. intros; apply le_refl.
  - change (le (loop few c b n ρ w) (loop many c b n ρ w)). generalize n at 1 2 as k. intros k. revert ρ w. induction k as [|k IHk]; intros ρ w; [apply le_refl|].
    cbn [loop]. apply le_bind; [apply eval_cond_le|]. intros [w1 t]. destruct (negb t); [apply le_refl|]. apply le_bind; [now apply execs_le|]. intros [[g ρ2] w2]. destruct g; try apply le_refl; apply IHk.
  - change (le (do! (w, t) <- eval_cond few ρ w c; if t then execs few ret n ρ w b else elifs few el ρ w es) (do! (w, t) <- eval_cond many ρ w c; if t then execs many ret n ρ w b else elifs many el ρ w es)).
    apply le_bind; [apply eval_cond_le|]. intros [w1 t]. destruct t; [now apply execs_le|]. clear w c b IHb. revert w1. induction IHes as [|[c b] es H _ IHe]; intros w.
    + cbn [elifs]. destruct el as [b|]; [now apply execs_le|apply le_refl].
    + cbn [elifs]. apply le_bind; [apply eval_cond_le|]. intros [w2 t]. destruct t; [now apply execs_le|]. apply IHe.
Qed.
Lemma run_le params args w body : le (run_body oper conv (total ext) konst_val truth llvm19 few fsig ret n params args w body) (run_body oper conv (total ext) konst_val truth llvm19 many fsig ret n params args w body).
Proof. unfold run_body. apply le_bind; [apply execs_le; apply Forall_forall; intros s _; apply exec_le|]. intros; apply le_refl. Qed.
End More.

Section Declared.
Context {V W : Type}.
Variable oper : optok -> vty -> list V -> option V.
Variable conv : vty -> vty -> V -> option V.
Variable ext : text -> W -> list V -> W * V.
Variable konst_val : konst -> V.
Variable truth : V -> bool.
Variable llvm19 : bool.
Variable op_fun : optok -> vty -> option vty.
Definition equivalent fsig ret params (args : list V) body F w : Prop :=
  let source n := run_body oper conv (total ext) konst_val truth llvm19 op_fun fsig ret n params args w (map denote_stmt body) in
  let call m := @Ir_Model.call V W (ir_prim oper conv) (total ext) konst_val truth args m F w in
  (forall r, (exists n, source n = Ret r) <-> (exists m, call m = Ret r)) /\
  ((exists n, source n = UB) <-> (exists m, call m = UB)) /\
  ((forall n, source n = Hang) <-> (forall m, call m = Hang)) /\
  (forall n, source n <> Err) /\ (forall m, call m <> Err).
Lemma declared_equiv D fsig ret params (args : list V) body F w : fits params args body -> compile llvm19 (declared_fun op_fun D) fsig ret params body = Ret F -> equivalent fsig ret params args body F w.
Proof.
  intros Hf C.
  pose proof (Codegen_Results2.compile_equiv oper conv ext konst_val truth llvm19 (declared_fun op_fun D) fsig ret params args body F w Hf C) as (R & U & H & E & E2).
  assert (forall n, run_body oper conv (total ext) konst_val truth llvm19 op_fun fsig ret n params args w (map denote_stmt body) = run_body oper conv (total ext) konst_val truth llvm19 (declared_fun op_fun D) fsig ret n params args w (map denote_stmt body)) as Q.
  { intros n. destruct (run_le oper conv ext konst_val truth llvm19 (declared_fun op_fun D) op_fun) with (fsig := fsig) (ret := ret) (n := n) (params := params) (args := args) (w := w) (body := map denote_stmt body) as [Q|Q].
    - intros op t r G. unfold declared_fun in G. destruct (existsb _ _); [exact G|discriminate G].
    - now elim (E n).
    - now symmetry. }
  unfold equivalent. cbn zeta. repeat split.
  - intros (n & Hn). apply R. exists n. now rewrite <- Q.
  - intros Hm. apply R in Hm as (n & Hn). exists n. now rewrite Q.
  - intros (n & Hn). apply U. exists n. now rewrite <- Q.
  - intros Hm. apply U in Hm as (n & Hn). exists n. now rewrite Q.
  - intros Hn. apply H. intros n. now rewrite <- Q.
  - intros Hm n. rewrite Q. now apply H.
  - intros n. rewrite Q. apply E.
  - exact E2.
Qed.
Lemma accepted_equiv fsig ret params (args : list V) body F w : fits params args body -> compile_function llvm19 op_fun fsig ret params body = Ret F -> equivalent fsig ret params args body F w.
Proof.
  intros Hf C. unfold compile_function in C. destruct (validate_function op_fun fsig ret params body) as [c| | |]; try discriminate C. exact (declared_equiv (snd c) fsig ret params args body F w Hf C).
Qed.
Lemma all_equiv reg D us : forall done Fs, compile_all llvm19 op_fun reg D done us = Ret Fs -> length Fs = length us /\
  forall i u F, nth_error us i = Some u -> nth_error Fs i = Some F -> forall args w, fits (u_params u) args (u_body u) ->
    equivalent (local_sig (done ++ firstn (S i) us) reg) (u_ret u) (u_params u) args (u_body u) F w.
Proof.
  induction us as [|v us IH]; intros done Fs C; cbn [compile_all] in C; [injection C as <-; split; [reflexivity|]; intros [|i] u F E; discriminate E|].
  destruct (compile llvm19 (declared_fun op_fun D) (local_sig (done ++ [v]) reg) (u_ret v) (u_params v) (u_body v)) as [G| | |] eqn:EG; try discriminate C. cbn [obind] in C.
  destruct (compile_all llvm19 op_fun reg D (done ++ [v]) us) as [Gs| | |] eqn:EGs; try discriminate C. injection C as <-. destruct (IH _ _ EGs) as [L H]. split; [cbn [length]; now rewrite L|].
  intros [|i] u F E1 E2 args w Hf; cbn [nth_error] in E1, E2.
  - injection E1 as <-. injection E2 as <-. cbn [firstn]. exact (declared_equiv D _ _ _ _ _ _ w Hf EG).
  - pose proof (H i u F E1 E2 args w Hf) as Q. rewrite <- app_assoc in Q. exact Q.
Qed.
Lemma source_equiv reg us Fs : compile_source llvm19 op_fun reg us = Ret Fs -> length Fs = length us /\
  forall i u F, nth_error us i = Some u -> nth_error Fs i = Some F -> forall args w, fits (u_params u) args (u_body u) ->
    equivalent (local_sig (firstn (S i) us) reg) (u_ret u) (u_params u) args (u_body u) F w.
Proof.
  unfold compile_source. intros C. destruct (validate_functions op_fun reg (match us with u :: _ => u_ret u | [] => TVoid end) [] us) as [D| | |]; try discriminate C. cbn [obind] in C. destruct (all_equiv reg D us [] Fs C) as [L H]. split; [exact L|].
  intros i u F E1 E2 args w Hf. exact (H i u F E1 E2 args w Hf).
Qed.
End Declared.
