(** Proofs for Link_Props. *)
From Coq Require Import Ascii String List Bool Arith ZArith Lia Permutation.
Import ListNotations.
From Verif Require Import Base Lexer_Model Op_Model Number_Model Parser_Model Parser_Spec Ir_Model Codegen_Model Codegen_Spec Codegen_Scope Codegen_Sim Validate_Spec Validate_Proofs Link_Model Link_Spec.
From Verif Require Import Validate_Model.
From Verif Require Lexer_Proofs Validate_Run.

(** *** A relation between two runs that differ in the functions called *)
Section Relation.
Context {B : Type}.
Variable R : forall A1 A2 : Type, (A1 -> B -> A2) -> B -> outcome A1 -> outcome A2 -> Prop.
Variable bounds : nat -> nat -> Prop.
Hypothesis R_ret : forall A1 A2 (l : A1 -> B -> A2) b x, R A1 A2 l b (Ret x) (Ret (l x b)).
Hypothesis R_err : forall A1 A2 (l : A1 -> B -> A2) b, R A1 A2 l b Err Err.
Hypothesis R_ub : forall A1 A2 (l : A1 -> B -> A2) b, R A1 A2 l b UB UB.
Hypothesis R_hang : forall A1 A2 (l : A1 -> B -> A2) b, R A1 A2 l b Hang Hang.
Hypothesis R_bind : forall A1 A2 A3 A4 (l : A1 -> B -> A2) (k : A3 -> B -> A4) b o o' f g,
  R A1 A2 l b o o' -> (forall x b1, R A3 A4 k b1 (f x) (g (l x b1))) -> R A3 A4 k b (do! x <- o; f x) (do! x <- o'; g x).
Hypothesis R_zero : forall A1 A2 (l : A1 -> B -> A2) b k o, bounds 0 k -> (k = 0 -> o = Hang) -> R A1 A2 l b Hang o.
Hypothesis bounds_S : forall k j, bounds (S k) j -> exists i, j = S i /\ bounds k i.
Context {V W W' : Type}.
Variable lift : W -> B -> W'.
Definition lift_p {A} (x : W * A) (b : B) : W' * A := (lift (fst x) b, snd x).
Definition lift_s {A} (x : A * W) (b : B) : A * W' := (fst x, lift (snd x) b).
Lemma R_pure {A A1 A2} (l : A1 -> B -> A2) b (o : outcome A) f g : (forall x, R A1 A2 l b (f x) (g x)) -> R A1 A2 l b (do! x <- o; f x) (do! x <- o; g x).
Proof. destruct o; intros H; [apply H|apply R_err|apply R_ub|apply R_hang]. Qed.

Variable p : text -> W -> list V -> outcome (W * V).
Variable p' : text -> W' -> list V -> outcome (W' * V).
Hypothesis calls : forall f w b vs, R _ _ lift_p b (p f w vs) (p' f (lift w b) vs).

Section Source.
Variable oper : optok -> vty -> list V -> option V.
Variable conv : vty -> vty -> V -> option V.
Variable konst_val : konst -> V.
Variable truth : V -> bool.
Variable llvm19 : bool.
Variable op_fun : optok -> vty -> option vty.
Variable fsig : text -> option (list vty * vty).
Definition evals {W} (p : text -> W -> list V -> outcome (W * V)) (ρ : env) : W -> list expr -> outcome (W * list (vty * V)) :=
  fix evals w es := match es with
    | [] => Ret (w, [])
    | e :: es' => do! (w, x) <- eval oper conv p konst_val llvm19 op_fun fsig ρ w e; do! (w, xs) <- evals w es'; Ret (w, x :: xs)
    end.
Notation ev q := (eval oper conv q konst_val llvm19 op_fun fsig).
Notation xe q := (exec_expr oper conv q konst_val llvm19 op_fun fsig).
Notation ec q := (eval_cond oper conv q konst_val truth llvm19 op_fun fsig).
Lemma eval_R ρ e : forall w b, R _ _ lift_p b (ev p ρ w e) (ev p' ρ (lift w b) e).
Proof.
  induction e as [v|v ty|t|x|f es IH|n ms|op a IH|op a c IHa IHb|c a d IHc IHa IHb|x|es] using expr_ind1; intros w b; try apply R_err.
  - exact (R_ret _ _ lift_p b (w, _)).
  - cbn [eval]. apply R_pure. intros k. exact (R_ret _ _ lift_p b (w, _)).
  - cbn [eval]. destruct (ρ x) as [[t v]|]; [exact (R_ret _ _ lift_p b (w, _))|]. destruct (text_eqb x _); [exact (R_ret _ _ lift_p b (w, _))|]. destruct (text_eqb x _); [exact (R_ret _ _ lift_p b (w, _))|apply R_ub].
  - change (ev p ρ w (ECall f es)) with (do! (w, xs) <- evals p ρ w es; match find_text function_operators f with
      | Some (op, _) => do! r <- apply_op oper conv llvm19 op_fun op xs; Ret (w, r)
      | None => do! (ts, rt) <- typed (fsig f); do! vs <- convert_each conv xs ts; do! (w, v) <- p f w vs; Ret (w, (rt, v)) end).
    change (ev p' ρ (lift w b) (ECall f es)) with (do! (w, xs) <- evals p' ρ (lift w b) es; match find_text function_operators f with
      | Some (op, _) => do! r <- apply_op oper conv llvm19 op_fun op xs; Ret (w, r)
      | None => do! (ts, rt) <- typed (fsig f); do! vs <- convert_each conv xs ts; do! (w, v) <- p' f w vs; Ret (w, (rt, v)) end).
    apply R_bind with (l := lift_p).
    + clear f. revert w b. induction IH as [|e es He _ IHes]; intros w b; [exact (R_ret _ _ lift_p b (w, _))|].
      change (evals p ρ w (e :: es)) with (do! (w, x) <- ev p ρ w e; do! (w, xs) <- evals p ρ w es; Ret (w, x :: xs)).
      change (evals p' ρ (lift w b) (e :: es)) with (do! (w, x) <- ev p' ρ (lift w b) e; do! (w, xs) <- evals p' ρ w es; Ret (w, x :: xs)).
      apply R_bind with (l := lift_p); [apply He|]. intros [w1 x] b1. cbn [lift_p fst snd]. apply R_bind with (l := lift_p); [apply IHes|]. intros [w2 xs] b2. exact (R_ret _ _ lift_p b2 (w2, _)).
    + intros [w1 xs] b1. cbn [lift_p fst snd]. destruct (find_text function_operators f) as [[op k]|].
      * apply R_pure. intros r. exact (R_ret _ _ lift_p b1 (w1, _)).
      * apply R_pure. intros [ts rt]. apply R_pure. intros vs. apply R_bind with (l := lift_p); [apply calls|]. intros [w2 v] b2. exact (R_ret _ _ lift_p b2 (w2, _)).
  - cbn [eval]. apply R_bind with (l := lift_p); [apply IH|]. intros [w1 x] b1. cbn [lift_p fst snd]. apply R_pure. intros r. exact (R_ret _ _ lift_p b1 (w1, _)).
  - cbn [eval]. apply R_bind with (l := lift_p); [apply IHa|]. intros [w1 x] b1. cbn [lift_p fst snd]. apply R_bind with (l := lift_p); [apply IHb|]. intros [w2 y] b2. cbn [lift_p fst snd]. apply R_pure. intros r. exact (R_ret _ _ lift_p b2 (w2, _)).
  - cbn [eval]. apply R_bind with (l := lift_p); [apply IHc|]. intros [w0 z] b0. cbn [lift_p fst snd]. apply R_bind with (l := lift_p); [apply IHa|]. intros [w1 x] b1. cbn [lift_p fst snd]. apply R_bind with (l := lift_p); [apply IHb|]. intros [w2 y] b2. cbn [lift_p fst snd]. apply R_pure. intros r. exact (R_ret _ _ lift_p b2 (w2, _)).
Qed.
Lemma exec_expr_R ρ w b e : R _ _ lift_s b (xe p ρ w e) (xe p' ρ (lift w b) e).
Proof.
  assert (forall e, R _ _ lift_s b (do! (w, _) <- ev p ρ w e; Ret (ρ, w)) (do! (w, _) <- ev p' ρ (lift w b) e; Ret (ρ, w))) as D.
  { intros e0. apply R_bind with (l := lift_p); [apply eval_R|]. intros [w1 x] b1. exact (R_ret _ _ lift_s b1 (ρ, w1)). }
  assert (forall op x c, R _ _ lift_s b (do! (w, y) <- ev p ρ w c; do! (tx, vx) <- defined (ρ x); do! (t, v) <- apply_op oper conv llvm19 op_fun op [(tx, vx); y]; if vty_eqb tx t then Ret (set_var ρ x t v, w) else Err)
                            (do! (w, y) <- ev p' ρ (lift w b) c; do! (tx, vx) <- defined (ρ x); do! (t, v) <- apply_op oper conv llvm19 op_fun op [(tx, vx); y]; if vty_eqb tx t then Ret (set_var ρ x t v, w) else Err)) as C.
  { intros op x c. apply R_bind with (l := lift_p); [apply eval_R|]. intros [w1 y] b1. cbn [lift_p fst snd]. apply R_pure. intros [tx vx]. apply R_pure. intros [t v]. destruct (vty_eqb tx t); [exact (R_ret _ _ lift_s b1 (_, w1))|apply R_err]. }
  destruct e as [| | | | | | | | |op a c|]; try apply D.
  unfold exec_expr. destruct op; try (destruct (find (fun p => optok_eqb (fst p) _) compound) as [[? ?]|]; [|apply D]; destruct a; try apply D; apply C).
  destruct a; try (destruct (find (fun p => optok_eqb (fst p) OP_ASSIGN) compound) as [[? ?]|]; apply D).
  - apply R_bind with (l := lift_p); [apply eval_R|]. intros [w1 [t v]] b1. cbn [lift_p fst snd]. apply R_pure. intros [tx vx]. destruct (vty_eqb _ _); [exact (R_ret _ _ lift_s b1 (_, w1))|apply R_err].
  - apply R_bind with (l := lift_p); [apply eval_R|]. intros [w1 [t v]] b1. cbn [lift_p fst snd]. destruct (vty_eqb _ _); [apply R_err|exact (R_ret _ _ lift_s b1 (_, w1))].
Qed.
Lemma eval_cond_R ρ w b c : R _ _ lift_p b (ec p ρ w c) (ec p' ρ (lift w b) c).
Proof. unfold eval_cond. apply R_bind with (l := lift_p); [apply eval_R|]. intros [w1 [t v]] b1. cbn [lift_p fst snd]. destruct (vty_eqb t TBit); [exact (R_ret _ _ lift_p b1 (w1, _))|apply R_err]. Qed.
Variable ret : vty.
Variables n n' : nat.
Hypothesis Bn : bounds n n'.
Notation ex q n := (exec oper conv q konst_val truth llvm19 op_fun fsig ret n).
Notation exs q n := (execs oper conv q konst_val truth llvm19 op_fun fsig ret n).
Definition R_st (s : st) : Prop := forall ρ w b, R _ _ lift_s b (ex p n ρ w s) (ex p' n' ρ (lift w b) s).
Lemma execs_R l : Forall R_st l -> forall ρ w b, R _ _ lift_s b (exs p n ρ w l) (exs p' n' ρ (lift w b) l).
Proof.
  induction 1 as [|s l H _ IH]; intros ρ w b; [exact (R_ret _ _ lift_s b (_, w))|].
  change (exs p n ρ w (s :: l)) with (do! (g, ρ, w) <- ex p n ρ w s; match g with Next => exs p n ρ w l | _ => Ret (g, ρ, w) end).
  change (exs p' n' ρ (lift w b) (s :: l)) with (do! (g, ρ, w) <- ex p' n' ρ (lift w b) s; match g with Next => exs p' n' ρ w l | _ => Ret (g, ρ, w) end).
  apply R_bind with (l := lift_s); [apply H|]. intros [[g ρ1] w1] b1. cbn [lift_s fst snd]. destruct g; [apply IH|exact (R_ret _ _ lift_s b1 (_, w1))..].
Qed.
Definition loop {W} (p : text -> W -> list V -> outcome (W * V)) (n : nat) (c : expr) (b : list st) : nat -> env -> W -> outcome (signal V * env * W) :=
  fix loop k ρ w := match k with
    | O => Hang
    | S k => do! (w, t) <- ec p ρ w c;
             if negb t then Ret (Next, ρ, w)
             else do! (g, ρ, w) <- exs p n ρ w b;
                  match g with Next | Continued => loop k ρ w | Broke => Ret (Next, ρ, w) | Returned v => Ret (Returned v, ρ, w) end
    end.
Definition elifs {W} (p : text -> W -> list V -> outcome (W * V)) (n : nat) (el : option (list st)) : env -> W -> list (expr * list st) -> outcome (signal V * env * W) :=
  fix elifs ρ w es := match es with
    | [] => match el with Some b => exs p n ρ w b | None => Ret (Next, ρ, w) end
    | (c, b) :: es' => do! (w, t) <- ec p ρ w c; if t then exs p n ρ w b else elifs ρ w es'
    end.
Lemma exec_R s : R_st s.
Proof.
  induction s as [e|e|c d IH|c d es el IHb IHes IHel| |] using st_ind2; intros ρ w b; try exact (R_ret _ _ lift_s b (_, w)).
  - destruct e as [e|]; [|exact (R_ret _ _ lift_s b (_, w))]. cbn [exec]. apply R_bind with (l := lift_p); [apply eval_R|]. intros [w1 x] b1. cbn [lift_p fst snd]. apply R_pure. intros v. exact (R_ret _ _ lift_s b1 (_, w1)).
  - cbn [exec]. apply R_bind with (l := lift_s); [apply exec_expr_R|]. intros [ρ1 w1] b1. exact (R_ret _ _ lift_s b1 (_, w1)).
  - change (R _ _ lift_s b (loop p n c d n ρ w) (loop p' n' c d n' ρ (lift w b))). revert ρ w b. generalize n' at 2 as j, n at 2 as k, Bn.
    intros j k. revert j. induction k as [|k IHk]; intros j Hj ρ w b; [apply (R_zero _ _ _ _ j); [exact Hj|intros ->; reflexivity]|].
    destruct (bounds_S _ _ Hj) as (i & -> & Hi). cbn [loop]. apply R_bind with (l := lift_p); [apply eval_cond_R|]. intros [w1 t] b1. cbn [lift_p fst snd]. destruct (negb t); [exact (R_ret _ _ lift_s b1 (_, w1))|].
    apply R_bind with (l := lift_s); [now apply execs_R|]. intros [[g ρ2] w2] b2. cbn [lift_s fst snd]. destruct g; [now apply IHk|exact (R_ret _ _ lift_s b2 (_, w2))|now apply IHk|exact (R_ret _ _ lift_s b2 (_, w2))].
  - change (R _ _ lift_s b (do! (w, t) <- ec p ρ w c; if t then exs p n ρ w d else elifs p n el ρ w es) (do! (w, t) <- ec p' ρ (lift w b) c; if t then exs p' n' ρ w d else elifs p' n' el ρ w es)).
    apply R_bind with (l := lift_p); [apply eval_cond_R|]. intros [w1 t] b1. cbn [lift_p fst snd]. destruct t; [now apply execs_R|]. clear w c d b IHb. revert w1 b1. induction IHes as [|[c d] es H _ IHe]; intros w b.
    + cbn [elifs]. destruct el as [d|]; [now apply execs_R|exact (R_ret _ _ lift_s b (_, w))].
    + cbn [elifs]. apply R_bind with (l := lift_p); [apply eval_cond_R|]. intros [w2 t] b2. cbn [lift_p fst snd]. destruct t; [now apply execs_R|]. apply IHe.
Qed.
Lemma run_body_R params args w b body :
  R _ _ lift_s b (run_body oper conv p konst_val truth llvm19 op_fun fsig ret n params args w body) (run_body oper conv p' konst_val truth llvm19 op_fun fsig ret n' params args (lift w b) body).
Proof.
  unfold run_body. apply R_bind with (l := lift_s); [apply execs_R; apply Forall_forall; intros s _; apply exec_R|]. intros [[g ρ] w1] b1. cbn [lift_s fst snd].
  destruct g as [| | |[v|]]; try apply R_err; [|exact (R_ret _ _ lift_s b1 (_, w1))|]; (destruct (vty_eqb ret TVoid); [exact (R_ret _ _ lift_s b1 (_, w1))|apply R_ub]).
Qed.
End Source.

Section Machine.
Variable prim_sem : prim -> list V -> option V.
Variable konst_val : konst -> V.
Variable truth : V -> bool.
Variable args : list V.
Definition lift_rt (s : @rt V W) (b : B) : @rt V W' := Rt (regs s) (slots s) (lift (world s) b).
Definition lift_x (x : @point V W + option V * W) (b : B) : @point V W' + option V * W' :=
  match x with inl q => inl (Pt (p_b q) (p_k q) (lift_rt (p_rt q) b)) | inr r => inr (lift_s r b) end.
Lemma opval_lift s b o : opval konst_val args (lift_rt s b) o = opval konst_val args s o.
Proof. reflexivity. Qed.
Lemma opvals_lift s b os : opvals konst_val args (lift_rt s b) os = opvals konst_val args s os.
Proof. induction os as [|o os IH]; [reflexivity|]. cbn [opvals]. rewrite IH. reflexivity. Qed.
Lemma inst_R i s b : R _ _ lift_rt b (exec_inst prim_sem p konst_val args s i) (exec_inst prim_sem p' konst_val args (lift_rt s b) i).
Proof.
  destruct i as [k|r k|o k|r q os|r f os]; cbn [exec_inst].
  - exact (R_ret _ _ lift_rt b (Rt _ _ _)).
  - change (slots (lift_rt s b)) with (slots s). destruct (slots s k) as [[v|]|]; [exact (R_ret _ _ lift_rt b (Rt _ _ _))|apply R_ub..].
  - change (slots (lift_rt s b)) with (slots s). rewrite opval_lift. apply R_pure. intros v. destruct (slots s k) as [c|]; [exact (R_ret _ _ lift_rt b (Rt _ _ _))|apply R_ub].
  - rewrite opvals_lift. apply R_pure. intros vs. destruct (prim_sem q vs) as [v|]; [exact (R_ret _ _ lift_rt b (Rt _ _ _))|apply R_ub].
  - rewrite opvals_lift. apply R_pure. intros vs. apply R_bind with (l := lift_p); [apply calls|]. intros [w v] b1. exact (R_ret _ _ lift_rt b1 (Rt _ _ _)).
Qed.
Lemma step_R F q b : R _ _ lift_x b (step prim_sem p konst_val truth args F q) (step prim_sem p' konst_val truth args F (Pt (p_b q) (p_k q) (lift_rt (p_rt q) b))).
Proof.
  unfold step. cbn [p_b p_k p_rt]. destruct (nth_error _ _) as [[i|c|o c d|o|]|]; [| | | | |apply R_ub].
  - apply R_bind with (l := lift_rt); [apply inst_R|]. intros s b1. exact (R_ret _ _ lift_x b1 (inl (Pt _ _ s))).
  - exact (R_ret _ _ lift_x b (inl (Pt _ _ _))).
  - rewrite opval_lift. apply R_pure. intros v. exact (R_ret _ _ lift_x b (inl (Pt _ _ _))).
  - rewrite opval_lift. apply R_pure. intros v. exact (R_ret _ _ lift_x b (inr (_, _))).
  - exact (R_ret _ _ lift_x b (inr (_, _))).
Qed.
Lemma run_R F m : forall m' q b, bounds m m' -> R _ _ lift_s b (run prim_sem p konst_val truth args m F q) (run prim_sem p' konst_val truth args m' F (Pt (p_b q) (p_k q) (lift_rt (p_rt q) b))).
Proof.
  induction m as [|m IH]; intros m' q b H; [apply (R_zero _ _ _ _ m'); [exact H|intros ->; reflexivity]|]. destruct (bounds_S _ _ H) as (i & -> & Hi). cbn [run].
  apply R_bind with (l := lift_x); [apply step_R|]. intros [q1|r] b1; [now apply IH|apply R_ret].
Qed.
Lemma call_R F m m' w b : bounds m m' -> R _ _ lift_s b (Ir_Model.call prim_sem p konst_val truth args m F w) (Ir_Model.call prim_sem p' konst_val truth args m' F (lift w b)).
Proof. intros H. exact (run_R F m m' (Pt 0 0 (Rt _ _ w)) b H). Qed.
End Machine.
End Relation.

(** *** First use: functions that may fail, and functions that note a failure in the state of the world *)
Definition noted A1 A2 (l : A1 -> bool -> A2) (b : bool) (o : outcome A1) (o' : outcome A2) : Prop :=
  (b = true -> forall x, o = Ret x -> o' = Ret (l x true)) /\
  (forall x', o' = Ret x' -> exists x b', x' = l x b' /\ (b' = true -> b = true /\ o = Ret x)).
Lemma noted_fail A1 A2 l b o (o' : outcome A2) : (forall x, o <> Ret x) -> (forall x, o' <> Ret x) -> noted A1 A2 l b o o'.
Proof. intros H H'. split; [intros _ x E; now elim (H x)|intros x E; now elim (H' x)]. Qed.
Lemma noted_ret A1 A2 l b x : noted A1 A2 l b (Ret x) (Ret (l x b)).
Proof. split; [intros -> y E; now injection E as <-|]. intros y E. injection E as <-. exists x, b. auto. Qed.
Lemma noted_bind A1 A2 A3 A4 (l : A1 -> bool -> A2) (k : A3 -> bool -> A4) b o o' f g :
  noted A1 A2 l b o o' -> (forall x b1, noted A3 A4 k b1 (f x) (g (l x b1))) -> noted A3 A4 k b (do! x <- o; f x) (do! x <- o'; g x).
Proof.
  intros [H1 H2] H. split.
  - intros Eb y E. destruct o as [x| | |]; try discriminate E. rewrite (H1 Eb x eq_refl). cbn [obind] in *. now apply (H x true).
  - intros y' E. destruct o' as [x'| | |]; try discriminate E. cbn [obind] in E. destruct (H2 x' eq_refl) as (x & b1 & -> & H3). destruct (proj2 (H x b1) y' E) as (y & b2 & -> & H4). exists y, b2. split; [reflexivity|].
    intros Q. destruct (H4 Q) as [Q1 Q2]. destruct (H3 Q1) as [Q3 ->]. auto.
Qed.
Section Noted.
Context {V W : Type}.
Variable p : text -> W -> list V -> outcome (W * V).
Variable dummy : V.
Definition noting (f : text) (x : W * bool) (vs : list V) : (W * bool) * V :=
  match p f (fst x) vs with Ret (w, v) => ((w, snd x), v) | _ => ((fst x, false), dummy) end.
Lemma noting_calls f w b vs : noted _ _ (lift_p (@pair W bool)) b (p f w vs) (total noting f (w, b) vs).
Proof.
  unfold total, noting. cbn [fst snd]. destruct (p f w vs) as [[w1 v]| | |]; [exact (noted_ret _ _ (lift_p (@pair W bool)) b (w1, v))|..];
    (split; [intros _ x E; discriminate E|]; intros x' E; injection E as <-; exists (w, dummy), false; split; [reflexivity|discriminate]).
Qed.
End Noted.
Ltac noted_goals := first [exact noted_ret|exact noted_bind
  |intros; apply noted_fail; intros; discriminate
  |intros A1 A2 l b k o <- H; rewrite (H eq_refl); apply noted_fail; intros; discriminate
  |intros k j <-; exists k; auto].

Section Partial.
Context {V W : Type}.
Variable oper : optok -> vty -> list V -> option V.
Variable conv : vty -> vty -> V -> option V.
Variable konst_val : konst -> V.
Variable truth : V -> bool.
Variable llvm19 : bool.
Variable op_fun : optok -> vty -> option vty.
Variable reg : text -> option (list vty * vty).
Variable us : list udf.
Variable Fs : list cfg.
Hypothesis compiled : compile_source llvm19 op_fun reg us = Ret Fs.
Notation source p known u n args w := (run_body oper conv p konst_val truth llvm19 op_fun (callable known reg) (u_ret u) n (u_params u) args w (map denote_stmt (u_body u))).
Notation code p F m args w := (Ir_Model.call (ir_prim oper conv) p konst_val truth args m F w).
Lemma partial_equiv (p : text -> W -> list V -> outcome (W * V)) i u F args w r :
  nth_error us i = Some u -> nth_error Fs i = Some F -> fits (u_params u) args (u_body u) ->
  (exists n, source p (firstn (S i) us) u n args w = Ret r) <-> (exists m, code p F m args w = Ret r).
Proof.
  intros Eu EF Hf. set (d := konst_val (KBool false)).
  destruct (Validate_Run.source_equiv oper conv (noting p d) konst_val truth llvm19 op_fun reg us Fs compiled) as [_ Q].
  destruct (Q i u F Eu EF args (w, true) Hf) as [E _]. specialize (E (fst r, (snd r, true))).
  assert (forall n, source p (firstn (S i) us) u n args w = Ret r <-> source (total (noting p d)) (firstn (S i) us) u n args (w, true) = Ret (fst r, (snd r, true))) as S.
  { intros n. pose proof (run_body_R noted eq ltac:(noted_goals) ltac:(noted_goals) ltac:(noted_goals) ltac:(noted_goals) ltac:(noted_goals) ltac:(noted_goals) ltac:(noted_goals)
      (@pair W bool) p (total (noting p d)) (noting_calls p d) oper conv konst_val truth llvm19 op_fun (callable (firstn (S i) us) reg) (u_ret u) n n eq_refl (u_params u) args w true (map denote_stmt (u_body u))) as [H1 H2].
    split; intros G; [exact (H1 eq_refl r G)|]. destruct (H2 _ G) as (x & b & Ex & H3). destruct x as [x1 x2], r as [r1 r2]. injection Ex as <- <- <-. now apply H3. }
  assert (forall m, code p F m args w = Ret r <-> code (total (noting p d)) F m args (w, true) = Ret (fst r, (snd r, true))) as M.
  { intros n. pose proof (call_R noted eq ltac:(noted_goals) ltac:(noted_goals) ltac:(noted_goals) ltac:(noted_goals) ltac:(noted_goals) ltac:(noted_goals) ltac:(noted_goals)
      (@pair W bool) p (total (noting p d)) (noting_calls p d) (ir_prim oper conv) konst_val truth args F n n w true eq_refl) as [H1 H2].
    split; intros G; [exact (H1 eq_refl r G)|]. destruct (H2 _ G) as (x & b & Ex & H3). destruct x as [x1 x2], r as [r1 r2]. injection Ex as <- <- <-. now apply H3. }
  split; intros (n & H).
  - destruct (proj1 E) as (m & Hm); [exists n; now apply S|]. exists m. now apply M.
  - destruct (proj2 E) as (m & Hm); [exists n; now apply M|]. exists m. now apply S.
Qed.
End Partial.

(** *** Second use: more functions return *)
Definition up A1 A2 (l : A1 -> unit -> A2) (b : unit) (o : outcome A1) (o' : outcome A2) : Prop := forall x, o = Ret x -> o' = Ret (l x b).
Lemma up_bind A1 A2 A3 A4 (l : A1 -> unit -> A2) (k : A3 -> unit -> A4) b o o' f g :
  up A1 A2 l b o o' -> (forall x b1, up A3 A4 k b1 (f x) (g (l x b1))) -> up A3 A4 k b (do! x <- o; f x) (do! x <- o'; g x).
Proof. intros H1 H y E. destruct o as [x| | |]; try discriminate E. rewrite (H1 x eq_refl). cbn [obind] in *. now apply (H x b). Qed.
Lemma up_ret A1 A2 l b x : up A1 A2 l b (Ret x) (Ret (l x b)).
Proof. intros y E. now injection E as <-. Qed.
Lemma up_fail A1 A2 l b o o' : (forall x, o <> Ret x) -> up A1 A2 l b o o'.
Proof. intros H x E. now elim (H x). Qed.
Lemma le_pred_ex k j : S k <= j -> exists i, j = S i /\ k <= i.
Proof. destruct j as [|j]; intros H; [inversion H|]. exists j. split; [reflexivity|lia]. Qed.
Ltac up_goals := first [exact up_bind|exact up_ret|exact le_pred_ex|intros; apply up_fail; intros; discriminate].
Section Up.
Context {V W : Type}.
Variables p q : text -> W -> list V -> outcome (W * V).
Hypothesis more : forall f w vs r, p f w vs = Ret r -> q f w vs = Ret r.
Lemma up_calls f w b vs : up _ _ (lift_p (fun (w : W) (_ : unit) => w)) b (p f w vs) (q f w vs).
Proof. intros [w1 v] E. exact (more f w vs (w1, v) E). Qed.
Lemma run_body_up oper conv konst_val truth llvm19 op_fun fsig ret n n' params args w body r : n <= n' ->
  run_body oper conv p konst_val truth llvm19 op_fun fsig ret n params args w body = Ret r -> run_body oper conv q konst_val truth llvm19 op_fun fsig ret n' params args w body = Ret r.
Proof.
  intros H E. pose proof (run_body_R up le ltac:(up_goals) ltac:(up_goals) ltac:(up_goals) ltac:(up_goals) ltac:(up_goals) ltac:(up_goals) ltac:(up_goals)
    (fun (w : W) (_ : unit) => w) p q up_calls oper conv konst_val truth llvm19 op_fun fsig ret n n' H params args w tt body r E) as Q. now destruct r.
Qed.
Lemma call_up prim_sem konst_val truth args n n' F w r : n <= n' ->
  Ir_Model.call prim_sem p konst_val truth args n F w = Ret r -> Ir_Model.call prim_sem q konst_val truth args n' F w = Ret r.
Proof.
  intros H E. pose proof (call_R up le ltac:(up_goals) ltac:(up_goals) ltac:(up_goals) ltac:(up_goals) ltac:(up_goals) ltac:(up_goals) ltac:(up_goals)
    (fun (w : W) (_ : unit) => w) p q up_calls prim_sem konst_val truth args F n n' w tt H r E) as Q. now destruct r.
Qed.
End Up.

(** *** A finite run needs only finitely many calls *)
Section Limit.
Context {V W : Type}.
Variable p : text -> W -> list V -> outcome (W * V).
Variable q : nat -> text -> W -> list V -> outcome (W * V).
Hypothesis grows : forall k k' f w vs r, k <= k' -> q k f w vs = Ret r -> q k' f w vs = Ret r.
Hypothesis reaches : forall f w vs r, p f w vs = Ret r -> exists k, q k f w vs = Ret r.
Variable prim_sem : prim -> list V -> option V.
Variable konst_val : konst -> V.
Variable truth : V -> bool.
Variable args : list V.
Lemma inst_limit s i s' : exec_inst prim_sem p konst_val args s i = Ret s' -> exists k, forall k', k <= k' -> exec_inst prim_sem (q k') konst_val args s i = Ret s'.
Proof.
  intros E. destruct i as [a|r a|o a|r x os|r f os]; try (exists 0; intros k' _; exact E).
  cbn [exec_inst] in *. destruct (opvals konst_val args s os) as [vs| | |]; try discriminate E. cbn [obind] in *. destruct (p f (world s) vs) as [[w v]| | |] eqn:Ep; try discriminate E. cbn [obind] in E.
  destruct (reaches _ _ _ _ Ep) as (k & Hk). exists k. intros k' H. rewrite (grows _ _ _ _ _ _ H Hk). exact E.
Qed.
Lemma step_limit F a x : step prim_sem p konst_val truth args F a = Ret x -> exists k, forall k', k <= k' -> step prim_sem (q k') konst_val truth args F a = Ret x.
Proof.
  unfold step. destruct (nth_error _ _) as [[i|c|o c d|o|]|]; intros E; try (exists 0; intros k' _; exact E).
  destruct (exec_inst prim_sem p konst_val args (p_rt a) i) as [s| | |] eqn:Ei; try discriminate E. destruct (inst_limit _ _ _ Ei) as (k & Hk). exists k. intros k' H. rewrite (Hk k' H). exact E.
Qed.
Lemma run_limit F m : forall a r, run prim_sem p konst_val truth args m F a = Ret r -> exists k, forall k', k <= k' -> run prim_sem (q k') konst_val truth args m F a = Ret r.
Proof.
  induction m as [|m IH]; intros a r E; [discriminate E|]. cbn [run] in E. destruct (step prim_sem p konst_val truth args F a) as [x| | |] eqn:Es; try discriminate E. cbn [obind] in E.
  destruct (step_limit _ _ _ Es) as (k & Hk). destruct x as [a1|r1].
  - destruct (IH _ _ E) as (j & Hj). exists (Nat.max k j). intros k' H. cbn [run]. rewrite Hk by lia. cbn [obind]. apply Hj. lia.
  - exists k. intros k' H. cbn [run]. rewrite Hk by lia. exact E.
Qed.
Lemma call_limit F m w r : Ir_Model.call prim_sem p konst_val truth args m F w = Ret r -> exists k, forall k', k <= k' -> Ir_Model.call prim_sem (q k') konst_val truth args m F w = Ret r.
Proof. apply run_limit. Qed.
End Limit.

(** *** The functions of a source *)
Lemma text_eqb_eq a b : text_eqb a b = true <-> a = b.
Proof. apply Lexer_Proofs.text_eqb_eq. Qed.
Lemma lookup_find (reg : text -> option (list vty * vty)) us Fs : length Fs = length us -> (forall u, In u us -> reg (u_name u) = None) -> forall before f,
  match lookup before us f with
  | None => find_code reg (combine us Fs) f = None
  | Some (known, u) => exists i F, nth_error us i = Some u /\ nth_error Fs i = Some F /\ known = before ++ firstn (S i) us /\ find_code reg (combine us Fs) f = Some (u, F)
  end.
Proof.
  revert Fs. induction us as [|u us IH]; intros Fs L N before f; [cbn [lookup]; unfold find_code; now destruct (reg f)|]. destruct Fs as [|F Fs]; [discriminate L|]. injection L as L.
  specialize (IH Fs L (fun v H => N v (or_intror H)) (before ++ [u]) f). unfold find_code in *. cbn [lookup combine find fst]. destruct (text_eqb (u_name u) f) eqn:Ef.
  - apply text_eqb_eq in Ef. subst f. rewrite (N u (or_introl eq_refl)). exists 0, F. auto.
  - destruct (lookup (before ++ [u]) us f) as [[known v]|]; [|exact IH]. destruct IH as (i & G & H1 & H2 & -> & H4). exists (S i), G. repeat split; [exact H1|exact H2|now rewrite <- app_assoc|exact H4].
Qed.
Lemma fits_of {V} (u : udf) (args : list V) : regular u -> length args = length (u_params u) -> fits (u_params u) args (u_body u).
Proof. intros (H1 & H2 & H3 & H4) L. now constructor. Qed.

Section Link.
Context {V W : Type}.
Variable oper : optok -> vty -> list V -> option V.
Variable conv : vty -> vty -> V -> option V.
Variable ext : text -> W -> list V -> W * V.
Variable konst_val : konst -> V.
Variable truth : V -> bool.
Variable llvm19 : bool.
Variable op_fun : optok -> vty -> option vty.
Variable reg : text -> option (list vty * vty).
Variable us : list udf.
Variable Fs : list cfg.
Notation mean n := (meaning oper conv ext konst_val truth llvm19 op_fun reg us n).
Notation link n := (linked (ir_prim oper conv) ext konst_val truth reg (combine us Fs) n).
Lemma meaning_grows n : forall n' f w vs r, n <= n' -> mean n f w vs = Ret r -> mean n' f w vs = Ret r.
Proof.
  induction n as [|n IH]; intros n' f w vs r H E.
  - destruct n' as [|n']; [exact E|]. cbn [meaning] in *. destruct (lookup [] us f) as [[known u]|]; [discriminate E|exact E].
  - destruct n' as [|n']; [inversion H|]. cbn [meaning] in *. destruct (lookup [] us f) as [[known u]|]; [|exact E]. destruct (_ =? _); [|discriminate E].
    destruct (run_body oper conv (mean n) konst_val truth llvm19 op_fun (callable known reg) (u_ret u) n (u_params u) vs w (map denote_stmt (u_body u))) as [x| | |] eqn:Ex; try discriminate E.
    rewrite (run_body_up (mean n) (mean n')) with (n := n) (r := x); [exact E|intros; apply IH; [lia|assumption]|lia|exact Ex].
Qed.
Lemma linked_grows n : forall n' f w vs r, n <= n' -> link n f w vs = Ret r -> link n' f w vs = Ret r.
Proof.
  induction n as [|n IH]; intros n' f w vs r H E.
  - destruct n' as [|n']; [exact E|]. cbn [linked] in *. destruct (find_code reg (combine us Fs) f) as [[u F]|]; [discriminate E|exact E].
  - destruct n' as [|n']; [inversion H|]. cbn [linked] in *. destruct (find_code reg (combine us Fs) f) as [[u F]|]; [|exact E]. destruct (_ =? _); [|discriminate E].
    destruct (Ir_Model.call (ir_prim oper conv) (link n) konst_val truth vs n F w) as [x| | |] eqn:Ex; try discriminate E.
    rewrite (call_up (link n) (link n')) with (n := n) (r := x); [exact E|intros; apply IH; [lia|assumption]|lia|exact Ex].
Qed.
Hypothesis compiled : compile_source llvm19 op_fun reg us = Ret Fs.
Hypothesis ok : Forall regular us.
Hypothesis new_names : forall u, In u us -> reg (u_name u) = None.
Lemma same_length : length Fs = length us.
Proof. exact (proj1 (Validate_Run.source_equiv oper conv ext konst_val truth llvm19 op_fun reg us Fs compiled)). Qed.
Lemma regular_nth i u : nth_error us i = Some u -> regular u.
Proof. intros E. apply nth_error_In in E. rewrite Forall_forall in ok. now apply ok. Qed.
Lemma meaning_linked n : forall f w vs r, mean n f w vs = Ret r -> exists m, link m f w vs = Ret r.
Proof.
  induction n as [|n IH]; intros f w vs r E; pose proof (lookup_find reg us Fs same_length new_names [] f) as L; cbn [meaning] in E; destruct (lookup [] us f) as [[known u]|]; try discriminate E; try (exists 0; cbn [linked]; rewrite L; exact E).
  destruct L as (i & F & Hu & HF & -> & HL). destruct (length vs =? length (u_params u)) eqn:El; [|discriminate E].
  destruct (run_body oper conv (mean n) konst_val truth llvm19 op_fun (callable ([] ++ firstn (S i) us) reg) (u_ret u) n (u_params u) vs w (map denote_stmt (u_body u))) as [x| | |] eqn:Ex; try discriminate E.
  destruct (proj1 (partial_equiv oper conv konst_val truth llvm19 op_fun reg us Fs compiled (mean n) i u F vs w x Hu HF (fits_of u vs (regular_nth i u Hu) (proj1 (Nat.eqb_eq _ _) El)))) as (m & Hm); [exists n; exact Ex|].
  destruct (call_limit (mean n) (fun k => link k) linked_grows IH _ _ _ _ _ _ _ _ Hm) as (k & Hk).
  exists (S (Nat.max k m)). cbn [linked]. rewrite HL, El. rewrite (call_up (link (Nat.max k m)) (link (Nat.max k m))) with (n := m) (r := x); [exact E|auto|lia|apply Hk; lia].
Qed.
Lemma linked_meaning n : forall f w vs r, link n f w vs = Ret r -> exists m, mean m f w vs = Ret r.
Proof.
  induction n as [|n IH]; intros f w vs r E; pose proof (lookup_find reg us Fs same_length new_names [] f) as L; cbn [linked] in E; destruct (lookup [] us f) as [[known u]|] eqn:EL.
  - destruct L as (i & F & Hu & HF & -> & HL). rewrite HL in E. discriminate E.
  - rewrite L in E. exists 0. cbn [meaning]. rewrite EL. exact E.
  - destruct L as (i & F & Hu & HF & -> & HL). rewrite HL in E. destruct (length vs =? length (u_params u)) eqn:El; [|discriminate E].
    destruct (Ir_Model.call (ir_prim oper conv) (link n) konst_val truth vs n F w) as [x| | |] eqn:Ex; try discriminate E.
    destruct (call_limit (link n) (fun k => mean k) meaning_grows IH _ _ _ _ _ _ _ _ Ex) as (k & Hk).
    destruct (proj2 (partial_equiv oper conv konst_val truth llvm19 op_fun reg us Fs compiled (mean k) i u F vs w x Hu HF (fits_of u vs (regular_nth i u Hu) (proj1 (Nat.eqb_eq _ _) El)))) as (m & Hm); [exists n; apply Hk; lia|].
    exists (S (Nat.max k m)). cbn [meaning]. rewrite EL, El. change (firstn (S i) us) with ([] ++ firstn (S i) us) in Hm. rewrite (run_body_up (mean k) (mean (Nat.max k m))) with (n := m) (r := x); [exact E|intros; apply (meaning_grows k); [lia|assumption]|lia|exact Hm].
  - rewrite L in E. exists 0. cbn [meaning]. rewrite EL. exact E.
Qed.
Lemma link_equiv f w vs r : (exists n, mean n f w vs = Ret r) <-> (exists m, link m f w vs = Ret r).
Proof. split; intros (n & H); [now apply (meaning_linked n)|now apply (linked_meaning n)]. Qed.
Lemma meaning_once n m f w vs r s : mean n f w vs = Ret r -> mean m f w vs = Ret s -> r = s.
Proof. intros H1 H2. apply (meaning_grows n (Nat.max n m)) in H1; [|lia]. apply (meaning_grows m (Nat.max n m)) in H2; [|lia]. congruence. Qed.
Lemma linked_once n m f w vs r s : link n f w vs = Ret r -> link m f w vs = Ret s -> r = s.
Proof. intros H1 H2. apply (linked_grows n (Nat.max n m)) in H1; [|lia]. apply (linked_grows m (Nat.max n m)) in H2; [|lia]. congruence. Qed.
End Link.

(** *** A function that calls itself in every case *)
Lemma obind_never {A B} (o : outcome A) (f : A -> outcome B) : (forall x, o <> Ret x) -> forall y, (do! x <- o; f x) <> Ret y.
Proof. intros H y E. destruct o as [x| | |]; try discriminate E. now elim (H x). Qed.
Lemma obind_never2 {A B} (o : outcome A) (f : A -> outcome B) : (forall x y, f x <> Ret y) -> forall y, (do! x <- o; f x) <> Ret y.
Proof. intros H y E. destruct o as [x| | |]; try discriminate E. now elim (H x y). Qed.
Section Never.
Context {V W : Type}.
Variable oper : optok -> vty -> list V -> option V.
Variable conv : vty -> vty -> V -> option V.
Variable p : text -> W -> list V -> outcome (W * V).
Variable konst_val : konst -> V.
Variable truth : V -> bool.
Variable llvm19 : bool.
Variable op_fun : optok -> vty -> option vty.
Variable fsig : text -> option (list vty * vty).
Variable f : text.
Hypothesis no_operator : find_text function_operators f = None.
Hypothesis never : forall w vs r, p f w vs <> Ret r.
Lemma eval_never ρ e : contains_call f e = true -> forall w r, eval oper conv p konst_val llvm19 op_fun fsig ρ w e <> Ret r.
Proof.
  induction e as [v|v ty|t|x|g es IH|n ms|op a IH|op a c IHa IHb|c a d IHc IHa IHb|x|es] using expr_ind1; intros C w; try discriminate C; cbn [contains_call] in C.
  - change (eval oper conv p konst_val llvm19 op_fun fsig ρ w (ECall g es)) with (do! (w, xs) <- evals oper conv konst_val llvm19 op_fun fsig p ρ w es; match find_text function_operators g with
      | Some (op, _) => do! r <- apply_op oper conv llvm19 op_fun op xs; Ret (w, r)
      | None => do! (ts, rt) <- typed (fsig g); do! vs <- convert_each conv xs ts; do! (w, v) <- p g w vs; Ret (w, (rt, v)) end).
    apply orb_prop in C as [C|C].
    + apply text_eqb_eq in C. subst g. rewrite no_operator. apply obind_never2. intros [w1 xs]. apply obind_never2. intros [ts rt]. apply obind_never2. intros vs. apply obind_never. apply never.
    + apply obind_never. clear g. revert w. induction IH as [|e es He _ IHes]; intros w; [discriminate C|]. cbn [existsb] in C.
      change (evals oper conv konst_val llvm19 op_fun fsig p ρ w (e :: es)) with (do! (w, x) <- eval oper conv p konst_val llvm19 op_fun fsig ρ w e; do! (w, xs) <- evals oper conv konst_val llvm19 op_fun fsig p ρ w es; Ret (w, x :: xs)).
      destruct (contains_call f e); [apply obind_never; now apply He|]. apply obind_never2. intros [w1 x]. apply obind_never. now apply IHes.
  - cbn [eval]. apply obind_never. now apply IH.
  - cbn [eval]. destruct (contains_call f a); [apply obind_never; now apply IHa|]. apply obind_never2. intros [w1 x]. apply obind_never. now apply IHb.
  - cbn [eval]. destruct (contains_call f c); [apply obind_never; now apply IHc|]. apply obind_never2. intros [w0 z]. destruct (contains_call f a); [apply obind_never; now apply IHa|]. apply obind_never2. intros [w1 x]. apply obind_never. now apply IHb.
Qed.
Lemma body_never ret n params args w e l r : contains_call f e = true ->
  run_body oper conv p konst_val truth llvm19 op_fun fsig ret n params args w (StReturn (Some e) :: l) <> Ret r.
Proof. intros C. unfold run_body. apply obind_never. cbn [execs]. apply obind_never. cbn [exec]. apply obind_never. now apply eval_never. Qed.
End Never.
Lemma validated_names op_fun reg ret0 us : forall done D, validate_functions op_fun reg ret0 done us = Ret D -> NoDup (map u_name done) -> NoDup (map u_name (done ++ us)).
Proof.
  induction us as [|u us IH]; intros done D E N; [now rewrite app_nil_r|]. cbn [validate_functions] in E.
  destruct (validate_function _ _ _ _ _); try discriminate E. cbn [obind] in E. destruct (existsb _ done) eqn:X; [discriminate E|].
  destruct (validate_functions op_fun reg ret0 (done ++ [u]) us) eqn:E1; try discriminate E. change (u :: us) with ([u] ++ us). rewrite app_assoc. apply (IH _ _ E1).
  rewrite map_app. apply (Permutation_NoDup (l := u_name u :: map u_name done)); [apply Permutation_cons_append|]. constructor; [|exact N].
  intros H. apply in_map_iff in H as (v & Ev & Hv). assert (existsb (fun v => text_eqb (u_name v) (u_name u)) done = true) as Q; [|congruence]. apply existsb_exists. exists v. split; [exact Hv|now apply text_eqb_eq].
Qed.
Lemma compiled_names llvm19 op_fun reg us Fs : compile_source llvm19 op_fun reg us = Ret Fs -> NoDup (map u_name us).
Proof. unfold compile_source. intros C. destruct (validate_functions op_fun reg _ [] us) as [D| | |] eqn:E; try discriminate C. exact (validated_names _ _ _ _ _ _ E (NoDup_nil _)). Qed.
Lemma lookup_own us : NoDup (map u_name us) -> forall before u, In u us -> exists known, lookup before us (u_name u) = Some (known, u).
Proof.
  induction us as [|v us IH]; intros N before u H; [contradiction|]. inversion N as [|? ? N1 N2]; subst. cbn [lookup]. destruct (text_eqb (u_name v) (u_name u)) eqn:E.
  - apply text_eqb_eq in E. destruct H as [<-|H]; [now eexists|]. elim N1. rewrite E. now apply in_map.
  - destruct H as [<-|H]; [|now apply IH]. assert (text_eqb (u_name v) (u_name v) = true) by now apply text_eqb_eq. congruence.
Qed.
Lemma endless {V W} oper conv (ext : text -> W -> list V -> W * V) konst_val truth llvm19 op_fun reg us Fs u o :
  compile_source llvm19 op_fun reg us = Ret Fs -> Forall regular us -> (forall u, In u us -> reg (u_name u) = None) ->
  In u us -> find_text function_operators (u_name u) = None -> u_body u = [S_return (Some o)] -> contains_call (u_name u) (denote o) = true ->
  forall m w args r, linked (ir_prim oper conv) ext konst_val truth reg (combine us Fs) m (u_name u) w args <> Ret r.
Proof.
  intros C R N Hu O Bu Cu m w args r E. destruct (linked_meaning oper conv ext konst_val truth llvm19 op_fun reg us Fs C R N m _ w args r E) as (n & Hn).
  destruct (lookup_own us (compiled_names _ _ _ _ _ C) [] u Hu) as (known & L). clear E m. revert w args r Hn. induction n as [|n IH]; intros w args r Hn; cbn [meaning] in Hn; rewrite L in Hn; [discriminate Hn|].
  destruct (_ =? _); [|discriminate Hn]. rewrite Bu in Hn. cbn [map denote_stmt] in Hn. revert Hn. apply obind_never. intros x. apply (body_never _ _ _ _ _ _ _ _ (u_name u) O IH). exact Cu.
Qed.
