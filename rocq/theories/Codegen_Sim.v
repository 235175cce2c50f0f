(** The generated control flow computes what the statements mean. *)
From Coq Require Import Ascii String List Bool Arith ZArith Lia.
Import ListNotations.
From Verif Require Import Base Lexer_Model Lexer_Proofs Op_Model Op_Lemmas Number_Model Parser_Model Parser_Spec Parser_Print Ir_Model Codegen_Model Codegen_Spec Codegen_Lemmas Codegen_Expr Codegen_Stmt Codegen_Shape Codegen_Flow.

Section Sim.
Context {V W : Type}.
Variable oper : optok -> vty -> list V -> option V.
Variable conv : vty -> vty -> V -> option V.
Variable ext : text -> W -> list V -> W * V.
Variable konst_val : konst -> V.
Variable truth : V -> bool.
Variable llvm19 : bool.
Variable op_fun : optok -> vty -> option vty.
Variable fsig : text -> option (list vty * vty).
Variable args : list V.
Notation rt := (@rt V W).
Notation env := (@env V).
Notation prim_sem := (ir_prim oper conv).
Notation opval := (@Ir_Model.opval V W konst_val args).
Notation step := (@Ir_Model.step V W prim_sem (total ext) konst_val truth args).
Notation run := (@Ir_Model.run V W prim_sem (total ext) konst_val truth args).
Notation eval := (eval oper conv (total ext) konst_val llvm19 op_fun fsig).
Notation eval_cond := (eval_cond oper conv (total ext) konst_val truth llvm19 op_fun fsig).
Notation exec_expr := (exec_expr oper conv (total ext) konst_val llvm19 op_fun fsig).
Notation exec := (exec oper conv (total ext) konst_val truth llvm19 op_fun fsig).
Notation execs := (execs oper conv (total ext) konst_val truth llvm19 op_fun fsig).
Notation execi := (execi oper conv ext konst_val args).
Notation den := (@den V W konst_val args).
Notation build_expr := (build_expr llvm19 op_fun fsig).
Notation bstmt := (build_stmt llvm19 op_fun fsig).
Notation blist := (build_list bstmt).
Notation Gt := (text -> option (vty * nat)).
Notation point := (@point V W).

(** *** Runs *)
Fixpoint steps (F : cfg) (m : nat) (p q : point) : Prop :=
  match m with O => p = q | S m => exists r, step F p = Ret (inl r) /\ steps F m r q end.
Lemma steps_trans F m k p q r : steps F m p q -> steps F k q r -> steps F (m + k) p r.
Proof. revert p. induction m as [|m IH]; cbn [steps Nat.add]; intros p H K; [now subst|]. destruct H as (x & E & H). eauto. Qed.
Lemma steps_one F p q : step F p = Ret (inl q) -> steps F 1 p q.
Proof. intros H. exists q. split; [assumption|reflexivity]. Qed.

Lemma straight F b xs : forall pre rest s, items_of F b = pre ++ map Ins xs ++ rest ->
  match execi xs s with
  | Ret s' => steps F (length xs) (Pt b (length pre) s) (Pt b (length pre + length xs) s')
  | UB => exists m q, steps F m (Pt b (length pre) s) q /\ step F q = UB
  | _ => True
  end.
Proof.
  induction xs as [|i xs IH]; intros pre rest s H. { cbn. now rewrite Nat.add_0_r. }
  assert (step F (Pt b (length pre) s) = do! s' <- exec_inst prim_sem (total ext) konst_val args s i; Ret (inl (Pt b (S (length pre)) s'))) as E.
  { unfold Ir_Model.step. cbn [p_b p_k p_rt]. rewrite H, nth_error_app2, Nat.sub_diag by lia. reflexivity. }
  cbn [Codegen_Expr.execi]. destruct (exec_inst prim_sem (total ext) konst_val args s i) as [s1| | |] eqn:E1; cbn [obind] in *; auto.
  - specialize (IH (pre ++ [Ins i]) rest s1). rewrite <- app_assoc in IH. cbn [app] in IH. specialize (IH H). rewrite app_length in IH. cbn [length] in IH. rewrite Nat.add_1_r in IH.
    destruct (execi xs s1) as [s'| | |]; auto.
    + cbn [length]. exists (Pt b (S (length pre)) s1). split; [assumption|]. now rewrite Nat.add_succ_r.
    + destruct IH as (m & q & A & B). exists (S m), q. split; [|assumption]. eexists. eauto.
  - exists 0, (Pt b (length pre) s). split; [reflexivity|assumption].
Qed.

Definition here (σ : cg) (s : rt) : point := Pt (cur σ) (length (items σ (cur σ))) s.
(** The finished function extends what has been generated. *)
Definition grows (F : cfg) (σ : cg) : Prop := forall b, exists r, items_of F b = items σ b ++ r.
Lemma grows_ipre F σ σ' : ipre σ σ' -> grows F σ' -> grows F σ.
Proof. intros A B b. destruct (A b) as (r & E), (B b) as (r' & E'). exists (r ++ r'). now rewrite E', E, app_assoc. Qed.
Lemma straight_here F xs σ σ' s : grows F σ' -> blks σ' = emit_at (cur σ) (map Ins xs) (blks σ) -> cur σ' = cur σ -> cur σ < len σ ->
  match execi xs s with
  | Ret s' => exists m, steps F m (here σ s) (here σ' s')
  | UB => exists m q, steps F m (here σ s) q /\ step F q = UB
  | _ => True
  end.
Proof.
  intros HG HB HC HL. destruct (HG (cur σ)) as (r & E). assert (items σ' (cur σ) = items σ (cur σ) ++ map Ins xs) as Ei by (rewrite HB; now apply items_emit_same).
  rewrite Ei, <- app_assoc in E. pose proof (straight F (cur σ) xs (items σ (cur σ)) r s E) as H. unfold here. rewrite HC, Ei, app_length, map_length. destruct (execi xs s); eauto.
Qed.
Lemma at_put F i σ : grows F (put i σ) -> cur σ < len σ -> nth_error (items_of F (cur σ)) (length (items σ (cur σ))) = Some i.
Proof.
  intros HG HL. destruct (HG (cur σ)) as (r & E). rewrite blks_put, items_emit_same in E by assumption. rewrite E, <- app_assoc, nth_error_app2, Nat.sub_diag by lia. reflexivity.
Qed.
Lemma jump F b σ s : grows F (put (Br b) σ) -> cur σ < len σ -> steps F 1 (here σ s) (Pt b 0 s).
Proof. intros HG HL. apply steps_one. unfold Ir_Model.step, here. cbn [p_b p_k p_rt]. now rewrite (at_put F (Br b) σ HG HL). Qed.

(** *** Signals *)
Lemma st_ind2 (P : st -> Prop) :
  (forall e, P (StReturn e)) -> (forall e, P (StExpr e)) ->
  (forall c b, Forall P b -> P (StWhile c b)) ->
  (forall c b es el, Forall P b -> Forall (fun x => Forall P (snd x)) es -> oall (Forall P) el -> P (StIf c b es el)) ->
  P StContinue -> P StBreak -> forall s, P s.
Proof.
  intros H1 H2 H3 H4 H5 H6. fix IH 1. intros [e|e|c b|c b es el| |]; [apply H1|apply H2| | |apply H5|apply H6].
  - apply H3. induction b as [|s b IHb]; constructor; auto.
  - apply H4.
    + induction b as [|s b IHb]; constructor; auto.
    + induction es as [|[c' b'] es IHe]; constructor; [cbn [snd]; clear IHe; induction b' as [|s b' IHb]; constructor; auto|exact IHe].
    + destruct el as [l|]; [|exact I]. cbn. induction l as [|s l IHl]; constructor; auto.
Qed.
Section Spec.
Variable ret : vty.
Variable n : nat.
Notation exec := (exec ret n).
Notation execs := (execs ret n).
Definition exec_loop (c : expr) (b : list st) : nat -> env -> W -> outcome (signal V * env * W) :=
  fix loop (k : nat) (ρ : env) (w : W) : outcome (signal V * env * W) :=
    match k with
    | O => Hang
    | S k =>
        do! (w, t) <- eval_cond ρ w c;
        if negb t then Ret (Next, ρ, w)
        else do! (g, ρ, w) <- execs ρ w b;
             match g with
             | Next | Continued => loop k ρ w
             | Broke => Ret (Next, ρ, w)
             | Returned v => Ret (Returned v, ρ, w)
             end
    end.
Lemma exec_while ρ w c b : exec ρ w (StWhile c b) = exec_loop c b n ρ w.
Proof. reflexivity. Qed.
Definition exec_else (el : option (list st)) (ρ : env) (w : W) : outcome (signal V * env * W) :=
  match el with Some b => execs ρ w b | None => Ret (Next, ρ, w) end.
Definition exec_elifs (el : option (list st)) : env -> W -> list (expr * list st) -> outcome (signal V * env * W) :=
  fix elifs ρ w es :=
    match es with
    | [] => exec_else el ρ w
    | (c, b) :: es' => do! (w, t) <- eval_cond ρ w c; if t then execs ρ w b else elifs ρ w es'
    end.
Lemma exec_if ρ w c b es el : exec ρ w (StIf c b es el) = do! (w, t) <- eval_cond ρ w c; if t then execs ρ w b else exec_elifs el ρ w es.
Proof. reflexivity. Qed.
Lemma execs_cons ρ w s l : execs ρ w (s :: l) = do! (g, ρ, w) <- exec ρ w s; match g with Next => execs ρ w l | _ => Ret (g, ρ, w) end.
Proof. reflexivity. Qed.
(** Control reaches the next statement only if the statement does not leave. *)
Lemma execs_next l : Forall (fun s => forall ρ w ρ' w', exec ρ w s = Ret (Next, ρ', w') -> leaves s = false) l ->
  forall ρ w ρ' w', execs ρ w l = Ret (Next, ρ', w') -> last_leaves l = false.
Proof.
  induction 1 as [|s l Hs Hl IH]; intros ρ w ρ' w' H; [reflexivity|]. rewrite execs_cons in H. destruct (exec ρ w s) as [[[g ρ1] w1]| | |] eqn:E; try discriminate. cbn [obind] in H.
  destruct g; try discriminate. destruct l as [|s2 l]; [|change (last_leaves (s2 :: l) = false); eauto]. cbn in H. injection H as <- <-. apply (Hs _ _ _ _ E).
Qed.
Lemma exec_next s : forall ρ w ρ' w', exec ρ w s = Ret (Next, ρ', w') -> leaves s = false.
Proof.
  induction s as [e|e|c b IH|c b es el IHb IHes IHel| |] using st_ind2; intros ρ w ρ' w' H; try reflexivity; try discriminate.
  - cbn in H. destruct e; [|discriminate]. destruct (eval ρ w e) as [[w1 x]| | |]; try discriminate. cbn [obind] in H. destruct (convert conv x ret); discriminate.
  - rewrite exec_if in H. destruct el as [el|]; [|reflexivity]. cbn [oall] in IHel. change (last_leaves b && forallb (fun x => match x with (_, b) => last_leaves b end) es && last_leaves el = false).
    destruct (eval_cond ρ w c) as [[w1 t]| | |]; try discriminate. cbn [obind] in H. destruct t. { now rewrite (execs_next b IHb _ _ _ _ H). }
    assert (forallb (fun x => match x with (_, b) => last_leaves b end) es = false \/ last_leaves el = false) as [ -> | -> ]; [|now rewrite andb_false_r|now rewrite andb_false_r].
    clear IHb. revert ρ w1 H. induction IHes as [|[c' b'] es Hb Hes IH]; intros ρ w1 H; cbn [exec_elifs exec_else] in H. { right. eapply execs_next; eauto. }
    destruct (eval_cond ρ w1 c') as [[w2 t]| | |]; try discriminate. cbn [obind] in H. cbn [forallb]. destruct t. { left. now rewrite (execs_next b' Hb _ _ _ _ H). }
    destruct (IH _ _ H) as [ -> | ]; [left; apply andb_false_r|now right].
Qed.
Lemma execs_next' l ρ w ρ' w' : execs ρ w l = Ret (Next, ρ', w') -> last_leaves l = false.
Proof. apply execs_next. apply Forall_forall. intros s _. apply exec_next. Qed.
End Spec.

(** *** Results *)
Definition retok (rs : option nat) (s : rt) : Prop := forall k, rs = Some k -> slots s k = Some None.
Definition goes (ls : list (nat * nat)) (xb : nat) (nx : rt -> point) (g : signal V) (s : rt) : option point :=
  match g with
  | Next => Some (nx s)
  | Broke => match ls with (_, e) :: _ => Some (Pt e 0 s) | [] => None end
  | Continued => match ls with (c, _) :: _ => Some (Pt c 0 s) | [] => None end
  | Returned _ => Some (Pt xb 0 s)
  end.
Definition after (rs : option nat) (G : Gt) (g : signal V) (ρ : env) (s : rt) : Prop :=
  match g with
  | Returned (Some v) => exists k, rs = Some k /\ slots s k = Some (Some v)
  | Returned None => retok rs s
  | _ => MG G s ρ /\ retok rs s
  end.
Definition res (F : cfg) (n : nat) (ls : list (nat * nat)) (xb : nat) (rs : option nat) (G : Gt) (nx : rt -> point) (p : point) (r : outcome (signal V * env * W)) : Prop :=
  match r with
  | Ret (g, ρ, w) => exists m s q, goes ls xb nx g s = Some q /\ steps F m p q /\ world s = w /\ after rs G g ρ s
  | UB => exists m q, steps F m p q /\ step F q = UB
  | Hang => exists m q, n <= m /\ steps F m p q
  | Err => False
  end.
Lemma res_pre F n ls xb rs G nx m p q r : steps F m p q -> res F n ls xb rs G nx q r -> res F n ls xb rs G nx p r.
Proof.
  intros H. unfold res. destruct r as [[[g ρ] w]| | |]; auto.
  - intros (k & s & x & A & B & C). exists (m + k), s, x. split; [assumption|]. split; [eapply steps_trans; eauto|assumption].
  - intros (k & x & A & B). exists (m + k), x. split; [eapply steps_trans; eauto|assumption].
  - intros (k & x & A & B). exists (m + k), x. split; [lia|eapply steps_trans; eauto].
Qed.
Lemma res_nx F n ls xb rs G nx nx' p r : (forall ρ w s, r = Ret (Next, ρ, w) -> exists m, steps F m (nx s) (nx' s)) -> res F n ls xb rs G nx p r -> res F n ls xb rs G nx' p r.
Proof.
  intros H. unfold res. destruct r as [[[g ρ] w]| | |]; auto. intros (k & s & x & A & B & C). destruct g; try (exists k, s, x; now auto).
  injection A as <-. destruct (H _ _ s eq_refl) as (m & Hm). exists (k + m), s, (nx' s). split; [reflexivity|]. split; [eapply steps_trans; eauto|assumption].
Qed.
Lemma res_seq F n ls xb rs G nx nx' p r f : res F n ls xb rs G nx p r ->
  (forall ρ w s, r = Ret (Next, ρ, w) -> world s = w -> MG G s ρ -> retok rs s -> res F n ls xb rs G nx' (nx s) (f ρ w)) ->
  res F n ls xb rs G nx' p (do! (g, ρ, w) <- r; match g with Next => f ρ w | _ => Ret (g, ρ, w) end).
Proof.
  intros H K. destruct r as [[[g ρ] w]| | |]; auto. cbn [obind]. destruct H as (m & s & x & A & B & C & D). destruct g; try (exists m, s, x; now auto).
  injection A as <-. destruct D. eapply res_pre; [exact B|]. eapply K; eauto.
Qed.

(** *** Variables *)
Definition fresh (σ : cg) (ds : list text) : Prop := Forall (fun x => find_text (named σ) x = None /\ x <> lit "pi" /\ x <> lit "e") ds.
Record vext (σ σ' : cg) (ds : list text) : Prop := {
  v_vi : VI σ';
  v_gsub : gsub σ (gvar σ');
  v_new : forall x, find_text (named σ') x <> None -> find_text (named σ) x <> None \/ In x ds }.
Lemma vext_eq σ σ' : VI σ -> vars_eq σ σ' -> vext σ σ' [].
Proof.
  intros H E. constructor; [eapply VI_eq; eauto| |].
  - intros x p Hx. now rewrite (gvar_eq _ _ _ E).
  - intros x. rewrite (e_named _ _ E). auto.
Qed.
Lemma vext_trans σ σ1 σ2 d1 d2 : vext σ σ1 d1 -> vext σ1 σ2 d2 -> vext σ σ2 (d1 ++ d2).
Proof.
  intros [A1 B1 C1] [A2 B2 C2]. constructor; [assumption| |].
  - intros x p H. auto.
  - intros x H. destruct (C2 _ H) as [H1|H1]; [|right; apply in_or_app; auto]. destruct (C1 _ H1); [auto|right; apply in_or_app; auto].
Qed.
Lemma vext_trans0 σ σ1 σ2 d : vext σ σ1 [] -> vext σ1 σ2 d -> vext σ σ2 d.
Proof. apply vext_trans. Qed.
Lemma vext_trans1 σ σ1 σ2 d : vext σ σ1 d -> vext σ1 σ2 [] -> vext σ σ2 d.
Proof. intros A B. rewrite <- (app_nil_r d). eapply vext_trans; eauto. Qed.
Lemma vext_sext xs σ σ' ds : sext xs σ σ' ds -> vext σ σ' ds.
Proof. intros H. constructor; apply H. Qed.
Lemma vext_pext xs σ σ' : VI σ -> objs_ok σ' -> pext xs σ σ' -> vext σ σ' [].
Proof. intros. eapply vext_sext. apply pext_sext; eauto. Qed.
Lemma fresh_next σ σ' d1 d2 : vext σ σ' d1 -> fresh σ d2 -> NoDup (d1 ++ d2) -> fresh σ' d2.
Proof.
  intros H Hf Hn. unfold fresh in *. rewrite Forall_forall in *. intros x Hx. destruct (Hf x Hx) as (A & B). split; [|assumption].
  destruct (find_text (named σ') x) eqn:E; [|reflexivity]. exfalso. destruct (v_new _ _ _ H x) as [H1|H1]; [congruence|congruence|].
  clear -Hn H1 Hx. induction d1 as [|a d1 IH]; [destruct H1|]. cbn in Hn. inversion Hn as [|? ? N1 N2]; subst. destruct H1 as [->|H1]; [apply N1, in_or_app; auto|auto].
Qed.
Lemma fresh_next0 σ σ' d : vext σ σ' [] -> fresh σ d -> fresh σ' d.
Proof.
  intros H Hf. unfold fresh in *. eapply Forall_impl; [|exact Hf]. cbn beta. intros x (A & B). split; [|exact B]. destruct (find_text (named σ') x) eqn:E; [|reflexivity]. destruct (v_new _ _ _ H x) as [Q|[]]; congruence.
Qed.
Lemma fresh_app σ d1 d2 : fresh σ (d1 ++ d2) -> fresh σ d1 /\ fresh σ d2.
Proof. apply Forall_app. Qed.
Lemma NoDup_app_inv {A} (a b : list A) : NoDup (a ++ b) -> NoDup a /\ NoDup b.
Proof.
  intros H. induction a as [|x a IH]; [split; [constructor|assumption]|]. cbn in H. inversion H as [|? ? N1 N2]; subst. destruct (IH N2). split; [|assumption]. constructor; [|assumption]. intros Hx. apply N1, in_or_app. auto.
Qed.
Lemma vext_incl σ σ' d1 d2 : incl d1 d2 -> vext σ σ' d1 -> vext σ σ' d2.
Proof. intros H [A B C]. constructor; auto. intros x Hx. destruct (C x Hx); auto. Qed.
Lemma gsub_trans σ σ' G ds : vext σ σ' ds -> gsub σ' G -> gsub σ G.
Proof. intros H Hs x p Hx. apply Hs, (v_gsub _ _ _ H), Hx. Qed.

(** *** Conditions *)
Lemma test_static c σ id σ1 σx o σy : pure (denote c) = true -> VI σ -> build_cond llvm19 op_fun fsig c σ = Ret (id, σ1) -> vars_eq σ1 σx -> load_value id σx = Ret (o, σy) ->
  vext σ σy [] /\ exists xs ys, blks σ1 = emit_at (cur σ) (map Ins xs) (blks σ) /\ cur σ1 = cur σ /\ blks σy = emit_at (cur σx) (map Ins ys) (blks σx) /\ cur σy = cur σx /\
    forall G rs ρ s, Gok G rs -> gsub σ G -> MG G s ρ ->
      (eval_cond ρ (world s) (denote c) = UB /\ (execi (xs ++ ys) s = UB \/ exists s', execi (xs ++ ys) s = Ret s' /\ opval s' o = UB)) \/
      (exists s' b, execi (xs ++ ys) s = Ret s' /\ slots s' = slots s /\ opval s' o = Ret b /\ eval_cond ρ (world s) (denote c) = Ret (world s', truth b)).
Proof.
  intros Hp HV H EV HL. unfold build_cond in H. destruct (build_expr c σ) as [[i s0]| | |] eqn:E; try discriminate. cbn [obind] in H.
  destruct (expr_sem oper conv ext konst_val llvm19 op_fun fsig args (fun _ => True) c σ i s0 Hp) as (xs & v & X & O1 & Hv & Hc & Sem); auto. { apply Forall_forall; auto. } { apply HV. } { now apply VI_nok. }
  unfold obj in H. rewrite Hv in H. cbn [obind] in H. destruct (vty_eqb (v_ty v) TBit) eqn:Et; [|discriminate]. injection H as -> ->.
  assert (objs_ok σx) as Ox. { unfold objs_ok. rewrite (e_nreg _ _ EV), (e_objs _ _ EV). exact O1. }
  assert (nth_error (objs σx) id = Some v) as Hvx by now rewrite (e_objs _ _ EV).
  destruct (load_sem oper conv ext konst_val args _ _ _ _ _ Ox Hvx HL) as (ys & Y & O2 & Q2 & K2 & R2).
  assert (VI σ1) as V1 by (eapply VI_pext; eauto). split. { eapply vext_trans0; [exact (vext_pext _ _ _ HV O1 X)|]. eapply vext_trans0; [exact (vext_eq _ _ V1 EV)|]. exact (vext_pext _ _ _ (VI_eq _ _ EV V1) O2 Y). }
  exists xs, ys. split; [apply X|]. split; [apply X|]. split; [apply Y|]. split; [apply Y|]. intros G rs ρ s HG Hs HM. rewrite execi_app. unfold Codegen_Spec.eval_cond.
  destruct (Sem ρ s (MG_Menv _ _ _ _ _ _ _ _ HV HG Hs HM)) as [[B1 B2]|(s1 & E1 & [Ks K] & G1)]. { left. rewrite B1, B2. auto. }
  rewrite E1. cbn [obind]. rewrite G1. clear G1. destruct (R2 s1) as [[B1 B2]|(s2 & E2 & [Ks2 _] & W2 & G2)].
  - left. rewrite B1, B2. auto.
  - destruct (den_cases konst_val args s1 v) as [D|(a & D)].
    + rewrite D in G2. left. rewrite D. split; [reflexivity|]. right. eauto.
    + rewrite D in *. right. exists s2, a. split; [assumption|]. split; [congruence|]. split; [assumption|]. cbn [obind]. rewrite Et. congruence.
Qed.
Lemma test_flow c σ id σ1 σx o σy bb nx : pure (denote c) = true -> VI σ -> build_cond llvm19 op_fun fsig c σ = Ret (id, σ1) -> vars_eq σ1 σx -> load_value id σx = Ret (o, σy) ->
  cur σx = cur σ1 -> (forall b, items σx b = items σ1 b) -> cur σ < len σ -> cur σx < len σx ->
  vext σ σy [] /\ ipre σ σ1 /\ ipre σx σy /\
  forall F G rs ρ s, grows F (put (CondBr o bb nx) σy) -> Gok G rs -> gsub σ G -> MG G s ρ ->
    (eval_cond ρ (world s) (denote c) = UB /\ exists m q, steps F m (here σ s) q /\ step F q = UB) \/
    (exists m s' (t : bool), 1 <= m /\ steps F m (here σ s) (Pt (if t then bb else nx : nat) 0 s') /\ slots s' = slots s /\ eval_cond ρ (world s) (denote c) = Ret (world s', t)).
Proof.
  intros Hp HV H EV HL Ec Ei L Lx. destruct (test_static _ _ _ _ _ _ _ Hp HV H EV HL) as (VX & xs & ys & B1 & C1 & B2 & C2 & Sem).
  assert (forall b l τ τ', blks τ' = emit_at b l (blks τ) -> ipre τ τ') as Pre.
  { intros b l τ τ' E z. rewrite E. destruct (Nat.eq_dec z b) as [->|Hn]; [|exists []; now rewrite items_emit_other, app_nil_r].
    destruct (Nat.lt_ge_cases b (len τ)) as [Hl|Hl]; [exists l; now apply items_emit_same|]. exists []. rewrite app_nil_r. unfold emit_at. destruct (nth_error (blks τ) b) eqn:En; [apply nth_error_lt in En; lia|reflexivity]. }
  pose proof (Pre _ _ _ _ B1) as P1. pose proof (Pre _ _ _ _ B2) as P2. split; [assumption|]. split; [assumption|]. split; [assumption|].
  intros F G rs ρ s HG HGo Hs HM. assert (grows F σy) as G2 by (eapply grows_ipre; [apply ipre_put|exact HG]).
  assert (grows F σ1) as G1. { eapply grows_ipre; [|eapply grows_ipre; [exact P2|exact G2]]. now apply ipre_eq. }
  assert (forall s, here σ1 s = here σx s) as Eh by (intros; unfold here; now rewrite Ec, Ei).
  assert (cur σy < len σy) as Ly by (rewrite C2, B2, emit_at_length; assumption).
  assert (match execi (xs ++ ys) s with Ret s' => exists m, steps F m (here σ s) (here σy s') | UB => exists m q, steps F m (here σ s) q /\ step F q = UB | _ => True end) as St.
  { rewrite execi_app. pose proof (straight_here F xs σ σ1 s G1 B1 C1 L) as S1. destruct (execi xs s) as [s1| | |]; cbn [obind]; auto. destruct S1 as (m & S1). rewrite Eh in S1.
    pose proof (straight_here F ys σx σy s1 G2 B2 C2 Lx) as S2. destruct (execi ys s1) as [s2| | |]; auto.
    - destruct S2 as (k & S2). exists (m + k). eapply steps_trans; eauto.
    - destruct S2 as (k & q & S2 & S3). exists (m + k), q. split; [eapply steps_trans; eauto|assumption]. }
  assert (forall s', step F (here σy s') = do! v <- opval s' o; Ret (inl (Pt (if truth v then bb else nx) 0 s'))) as Ej. { intros s'. unfold Ir_Model.step, here. cbn [p_b p_k p_rt]. now rewrite (at_put F (CondBr o bb nx) σy HG Ly). }
  destruct (Sem G rs ρ s HGo Hs HM) as [[B [D|(s' & D & Do)]]|(s' & b & D & Sl & Do & Ev)]; rewrite D in St.
  - left. auto.
  - left. split; [assumption|]. destruct St as (m & St). exists m, (here σy s'). split; [assumption|]. rewrite Ej, Do. reflexivity.
  - right. destruct St as (m & St). exists (m + 1), s', (truth b). split; [lia|]. split; [|auto]. eapply steps_trans; [exact St|]. apply steps_one. rewrite Ej, Do. cbn [obind]. destruct (truth b); reflexivity.
Qed.
(** *** Statements *)
Definition rets (σ : cg) : Prop := ret_slot σ = None <-> ret_ty σ = TVoid.
Definition flows (σ σ' : cg) (f : nat -> env -> W -> outcome (signal V * env * W)) : Prop :=
  forall F G ρ s n, grows F σ' -> Gok G (ret_slot σ) -> gsub σ' G -> MG G s ρ -> retok (ret_slot σ) s ->
    res F n (loops σ) (exit_b σ) (ret_slot σ) G (here σ') (here σ s) (f n ρ (world s)).
Definition SIM (x : stmt) : Prop := forall σ σ', simple (denote_stmt x) = true -> shaped (denote_stmt x) = true -> VI σ -> stays σ -> rets σ ->
  fresh σ (declares (denote_stmt x)) -> NoDup (declares (denote_stmt x)) -> bstmt x σ = Ret σ' ->
  vext σ σ' (declares (denote_stmt x)) /\ flows σ σ' (fun n ρ w => exec (ret_ty σ) n ρ w (denote_stmt x)).
Definition SIML (l : list stmt) : Prop := forall σ σ', forallb simple (map denote_stmt l) = true -> shaped_list (map denote_stmt l) = true -> VI σ -> stays σ -> rets σ ->
  fresh σ (flat_map declares (map denote_stmt l)) -> NoDup (flat_map declares (map denote_stmt l)) -> blist l σ = Ret σ' ->
  vext σ σ' (flat_map declares (map denote_stmt l)) /\ flows σ σ' (fun n ρ w => execs (ret_ty σ) n ρ w (map denote_stmt l)).

Lemma SIM_list l : Forall SIM l -> SIML l.
Proof.
  induction 1 as [|x l Hx Hl IH]; intros σ σ' Si Sh HV St Hr Hf Hn H.
  { injection H as <-. split; [apply vext_eq; [assumption|apply vars_refl]|]. intros F G ρ s n HF HG Hg HM Hk. exists 0, s, (here σ s). repeat (split; [reflexivity|]). split; assumption. }
  change (obind (bstmt x σ) (blist l) = Ret σ') in H. destruct (bstmt x σ) as [σ1| | |] eqn:E; try discriminate. cbn [obind] in H.
  cbn [map flat_map forallb] in *. apply andb_true_iff in Si as [Si1 Si2]. destruct (fresh_app _ _ _ Hf) as [Hf1 Hf2]. destruct (NoDup_app_inv _ _ Hn) as [Hn1 Hn2].
  assert (shaped (denote_stmt x) = true) as Sh1. { destruct l; [exact Sh|]. change (shaped (denote_stmt x) && negb (leaves (denote_stmt x)) && shaped_list (map denote_stmt (s :: l)) = true) in Sh. apply andb_true_iff in Sh as [Sh _]. now apply andb_true_iff in Sh as [Sh _]. }
  destruct (Hx σ σ1 Si1 Sh1 HV St Hr Hf1 Hn1 E) as [X1 R1]. destruct (shape llvm19 op_fun fsig x σ σ1 Sh1 E St) as [F1 K1].
  destruct l as [|x2 l].
  - injection H as <-. cbn [map flat_map]. rewrite app_nil_r. split; [assumption|]. intros F G ρ s n HF HG Hg HM Hk. specialize (R1 F G ρ s n HF HG Hg HM Hk). rewrite execs_cons.
    apply (res_seq _ _ _ _ _ _ _ (here σ1) _ _ (fun ρ w => Ret (Next, ρ, w)) R1). intros ρ1 w1 s1 _ Hw HM1 Hk1. exists 0, s1, (here σ1 s1). split; [reflexivity|]. split; [reflexivity|]. split; [assumption|]. split; assumption.
  - change (shaped (denote_stmt x) && negb (leaves (denote_stmt x)) && shaped_list (map denote_stmt (x2 :: l)) = true) in Sh. apply andb_true_iff in Sh as [Sh Sh2]. apply andb_true_iff in Sh as [_ Sh3]. apply negb_true_iff in Sh3.
    rewrite Sh3 in F1. pose proof (frame_stays _ _ _ St F1 K1) as St1.
    destruct (IH σ1 σ' Si2 Sh2 (v_vi _ _ _ X1) St1) as [X2 R2]; auto. { unfold rets. rewrite (k_rslot _ _ K1), (k_rty _ _ K1). exact Hr. } { eapply fresh_next; eauto. }
    split; [eapply vext_trans; eauto|]. intros F G ρ s n HF HG Hg HM Hk.
    assert (grows F σ1) as HF1. { eapply grows_ipre; [|exact HF]. destruct (shapes llvm19 op_fun fsig (x2 :: l) σ1 σ' Sh2 H St1) as [F2 _]. eapply ipre_frame; eauto. }
    specialize (R1 F G ρ s n HF1 HG (gsub_trans _ _ _ _ X2 Hg) HM Hk). rewrite execs_cons.
    apply (res_seq _ _ _ _ _ _ _ (here σ') _ _ (fun ρ w => execs (ret_ty σ) n ρ w (map denote_stmt (x2 :: l))) R1). intros ρ1 w1 s1 _ Hw HM1 Hk1. subst w1.
    unfold flows in R2. rewrite (k_loops _ _ K1), (k_exit _ _ K1), (k_rty _ _ K1), (k_rslot _ _ K1) in R2. apply R2; auto.
Qed.

Lemma pext_flow F xs σ σ' s : grows F σ' -> pext xs σ σ' -> cur σ < len σ ->
  match execi xs s with
  | Ret s' => exists m, steps F m (here σ s) (here σ' s')
  | UB => exists m q, steps F m (here σ s) q /\ step F q = UB
  | _ => True
  end.
Proof. intros HF X L. apply straight_here; auto; apply X. Qed.
Lemma pext_len xs σ σ' : pext xs σ σ' -> len σ' = len σ.
Proof. intros X. rewrite (x_blks _ _ _ X). apply emit_at_length. Qed.

Lemma SIM_return e : SIM (S_return e).
Proof.
  intros σ σ' Si Sh HV St Hr Hf Hn H. pose proof (proj1 (proj1 St)) as L. destruct e as [e|]; cbn [build_stmt] in H.
  2:{ cbn [return_ir] in H. injection H as <-. split; [apply vext_eq; [assumption|apply vars_put]|]. intros F G ρ s n HF HG Hg HM Hk. cbn [denote_stmt Codegen_Spec.exec].
      exists 1, s, (Pt (exit_b σ) 0 s). split; [reflexivity|]. split; [now apply jump|]. split; [reflexivity|]. exact Hk. }
  cbn [denote_stmt simple] in Si. destruct (build_expr e σ) as [[id σ1]| | |] eqn:E; try discriminate. cbn [obind return_ir] in H.
  destruct (cast_to id (ret_ty σ1) σ1) as [[id' σ2]| | |] eqn:E2; try discriminate. cbn [obind] in H.
  destruct (expr_sem oper conv ext konst_val llvm19 op_fun fsig args (fun _ => True) e σ id σ1 Si) as (xs & v & X & O1 & Hv & Hc & Sem); auto. { apply Forall_forall; auto. } { apply HV. } { now apply VI_nok. }
  destruct (cast_sem oper conv ext konst_val args _ _ _ _ _ _ O1 Hv E2) as (ys & v' & Y & O2 & Hv' & Tv & Cv & R2). rewrite (x_rty _ _ _ X) in *.
  assert (VI σ1) as V1 by (eapply VI_pext; eauto). assert (VI σ2) as V2 by (eapply VI_pext; eauto). cbn [denote_stmt Codegen_Spec.exec].
  assert (cur σ1 < len σ1) as L1 by (rewrite (x_cur _ _ _ X), (pext_len _ _ _ X); assumption). assert (cur σ2 < len σ2) as L2 by (rewrite (x_cur _ _ _ Y), (pext_len _ _ _ Y); assumption).
  pose proof (x_rslot _ _ _ X) as RS1. pose proof (x_rslot _ _ _ Y) as RS2. rewrite RS1 in RS2.
  assert (forall F G ρ s, grows F σ2 -> Gok G (ret_slot σ) -> gsub σ G -> MG G s ρ ->
    let r := do! (w, x) <- eval ρ (world s) (denote e); do! a <- convert conv x (ret_ty σ); Ret (w, a) in
    (r = UB /\ exists m q, steps F m (here σ s) q /\ step F q = UB) \/
    (exists m s', steps F m (here σ s) (here σ2 s') /\ slots s' = slots s /\ r = (do! a <- den s' v'; Ret (world s', a)) /\ (is_var (denote e) = false -> v_ty v = ret_ty σ -> exists a, den s' v' = Ret a))) as Run.
  { intros F G ρ s HF HG Hg HM r. assert (grows F σ1) as HF1. { eapply grows_ipre; [|exact HF]. eapply ipre_frame. apply (frame_iext []); [|split; [constructor; apply Y|exists ys; apply Y]]. pose proof (frame_iext [] _ _ (proj1 St) (conj (Build_same _ _ (x_cur _ _ _ X) (x_loops _ _ _ X) (x_exit _ _ _ X) (x_rty _ _ _ X) (x_rslot _ _ _ X)) (ex_intro _ xs (x_blks _ _ _ X)))) as FX. eapply ready_frame; eauto. }
    pose proof (pext_flow F xs σ σ1 s HF1 X L) as S1. destruct (Sem ρ s (MG_Menv _ _ _ _ _ _ _ _ HV HG Hg HM)) as [[B1 B2]|(s1 & Ex & [Ks K] & G1)].
    { left. unfold r. rewrite B2. split; [reflexivity|]. now rewrite B1 in S1. }
    rewrite Ex in S1. destruct S1 as (m & S1). pose proof (pext_flow F ys σ1 σ2 s1 HF Y L1) as S2.
    assert (r = do! a <- cv conv konst_val args s1 v (ret_ty σ); Ret (world s1, a)) as Er. { unfold r, cv. rewrite G1. destruct (den s1 v); reflexivity. }
    destruct (R2 s1) as [[B1 B2]|(s2 & Ex2 & [Ks2 _] & W2 & G2)].
    - left. rewrite Er, B2. split; [reflexivity|]. rewrite B1 in S2. destruct S2 as (k & q & A & B). exists (m + k), q. split; [eapply steps_trans; eauto|assumption].
    - right. rewrite Ex2 in S2. destruct S2 as (k & S2). exists (m + k), s2. split; [eapply steps_trans; eauto|]. split; [congruence|]. split; [rewrite Er, <- G2, W2; reflexivity|].
      intros Hi Ht. destruct (Hc Hi) as (op & _ & Hcomp). destruct (Hcomp _ _ Ex) as (a & Ha). exists a. rewrite G2. unfold cv. rewrite Ha. cbn [obind]. unfold convert. now rewrite Ht, vty_eqb_refl. }
  assert (vext σ σ2 []) as VX2 by (eapply vext_trans0; [exact (vext_pext _ _ _ HV O1 X)|exact (vext_pext _ _ _ V1 O2 Y)]).
  assert (forall ρ w, (do! (w, x) <- eval ρ w (denote e); do! v <- convert conv x (ret_ty σ); Ret (Returned (if vty_eqb (ret_ty σ) TVoid then None else Some v), ρ, w)) =
     do! (w, a) <- (do! (w, x) <- eval ρ w (denote e); do! a <- convert conv x (ret_ty σ); Ret (w, a)); Ret (Returned (if vty_eqb (ret_ty σ) TVoid then None else Some a), ρ, w)) as Assoc.
  { intros ρ w. destruct (eval ρ w (denote e)) as [[w1 x]| | |]; try reflexivity. cbn [obind]. destruct (convert conv x (ret_ty σ)); reflexivity. }
  assert (exit_b σ2 = exit_b σ) as X2 by (rewrite (x_exit _ _ _ Y); apply X).
  destruct (ret_slot σ2) as [k|] eqn:Ek.
  - destruct (load_value id' σ2) as [[o σ3]| | |] eqn:E3; try discriminate. cbn [obind] in H. injection H as <-.
    destruct (load_sem oper conv ext konst_val args _ _ _ _ _ O2 Hv' E3) as (zs & Z & O3 & Q3 & K3 & R3). set (σ4 := put (Ins (IStore o k)) σ3).
    assert (exit_b σ3 = exit_b σ) as X4. { rewrite (x_exit _ _ _ Z). exact X2. }
    assert (cur σ3 < len σ3) as L3 by (rewrite (x_cur _ _ _ Z), (pext_len _ _ _ Z); assumption).
    assert (cur σ4 < len σ4) as L4. { unfold σ4. rewrite cur_put, len_put. exact L3. }
    split. { eapply vext_trans0; [exact VX2|]. eapply vext_trans0; [exact (vext_pext _ _ _ V2 O3 Z)|]. apply vext_eq; [eapply VI_pext; eauto|]. eapply vars_trans; apply vars_put. }
    fold σ4. rewrite X4. intros F G ρ s n HF HG Hg HM Hk.
    assert (grows F σ4) as HF4 by (eapply grows_ipre; [apply ipre_put|exact HF]). assert (grows F σ3) as HF3 by (eapply grows_ipre; [apply ipre_put|exact HF4]).
    assert (grows F σ2) as HF2. { eapply grows_ipre; [|exact HF3]. intros z. rewrite (x_blks _ _ _ Z). destruct (Nat.eq_dec z (cur σ2)) as [->|Hz]; [exists (map Ins zs); now apply items_emit_same|exists []; now rewrite items_emit_other, app_nil_r]. }
    assert (gsub σ G) as Hg0. { intros z p Hz. apply Hg. eapply gsub_trans with (ds := []); [|intros ? ? Hq; exact Hq|exact Hz]. eapply vext_trans0; [exact VX2|]. eapply vext_trans0; [exact (vext_pext _ _ _ V2 O3 Z)|]. apply vext_eq; [eapply VI_pext; eauto|]. eapply vars_trans; apply vars_put. }
    rewrite Assoc. destruct (Run F G ρ s HF2 HG Hg0 HM) as [[B1 B2]|(m & s2 & S2 & Sl & Er & Hd)]. { rewrite B1. exact B2. }
    rewrite Er. clear Er Run Assoc Sem. pose proof (pext_flow F zs σ2 σ3 s2 HF3 Z L2) as S3. destruct (R3 s2) as [[B1 B2]|(s3 & Ex3 & [Ks3 _] & W3 & G3)].
    { rewrite B2. cbn [obind]. rewrite B1 in S3. destruct S3 as (j & q & A & B). exists (m + j), q. split; [eapply steps_trans; eauto|assumption]. }
    rewrite Ex3 in S3. destruct S3 as (j & S3). pose proof (straight_here F [IStore o k] σ3 σ4 s3 HF4 (blks_put _ _) (cur_put _ _) L3) as S4. cbn [Codegen_Expr.execi Ir_Model.exec_inst] in S4.
    assert (slots s3 k = Some None) as Sk. { rewrite Ks3, Sl. apply Hk. congruence. }
    destruct (den_cases konst_val args s2 v') as [D|(a & D)]; rewrite D in *; cbn [obind] in *; rewrite G3 in S4; cbn [obind] in S4; try rewrite Sk in S4; cbn [obind] in S4.
    + destruct S4 as (i & q & A & B). exists (m + (j + i)), q. split; [|assumption]. eapply steps_trans; [exact S2|]. eapply steps_trans; eauto.
    + destruct S4 as (i & S4). set (s4 := Rt _ _ _) in S4. exists (m + (j + (i + 1))), s4, (Pt (exit_b σ) 0 s4). split; [reflexivity|].
      split. { eapply steps_trans; [exact S2|]. eapply steps_trans; [exact S3|]. eapply steps_trans; [exact S4|]. now apply jump. }
      split; [exact W3|]. assert (vty_eqb (ret_ty σ) TVoid = false) as ->. { apply not_true_is_false. intros Ev. apply vty_eqb_eq in Ev. apply Hr in Ev. congruence. }
      exists k. split; [congruence|]. cbn. unfold upd. now rewrite Nat.eqb_refl.
  - injection H as <-. rewrite X2. split. { eapply vext_trans0; [exact VX2|]. apply vext_eq; [assumption|apply vars_put]. }
    intros F G ρ s n HF HG Hg HM Hk. assert (grows F σ2) as HF2 by (eapply grows_ipre; [apply ipre_put|exact HF]).
    assert (ret_ty σ = TVoid) as Ev by (apply Hr; congruence). rewrite Assoc.
    assert (gsub σ G) as Hg0. { intros z p Hz. apply Hg. rewrite (gvar_eq _ _ z (vars_put (Br (exit_b σ)) σ2)). apply (v_gsub _ _ _ VX2), Hz. }
    destruct (Run F G ρ s HF2 HG Hg0 HM) as [[B1 B2]|(m & s2 & S2 & Sl & Er & Hd)]. { rewrite B1. exact B2. }
    assert (v_ty v = TVoid) as Ty. { destruct Cv as [C|(? & ? & _ & C)]; [congruence|]. rewrite Ev in C. discriminate. }
    destruct (is_var (denote e)) eqn:Ei.
    { exfalso. destruct (denote e) as [| | |x| | | | | | |] eqn:Ed; try discriminate Ei. unfold Codegen_Model.build_expr in E. rewrite emit_denote, Ed in E. cbn in E. unfold build_rpn, build_rpn_with in E. cbn [build_nodes build_node] in E. unfold get_local_var in E.
      destruct (find_text (named σ) x) as [i|] eqn:Ex.
      - cbn in E. injection E as <- <-. destruct (vi_var _ HV _ _ Ex) as (_ & _ & t & j & Hn' & Ht & _). rewrite Hv in Hn'. injection Hn' as ->. cbn in Ty. contradiction.
      - destruct (text_eqb x (lit "pi")); [|destruct (text_eqb x (lit "e")); [|discriminate]]; cbn in E; injection E as <- <-; cbn in Hv; rewrite nth_error_app2, Nat.sub_diag in Hv by lia; injection Hv as <-; discriminate Ty. }
    destruct (Hd eq_refl) as (a & Ha); [congruence|]. rewrite Er, Ha. cbn [obind]. rewrite Ev. cbn [vty_eqb].
    exists (m + 1), s2, (Pt (exit_b σ) 0 s2). split; [reflexivity|]. split. { eapply steps_trans; [exact S2|]. now apply jump. } split; [reflexivity|].
    replace (vty_eqb TVoid TVoid) with true by reflexivity. intros j Hj. rewrite Sl. auto.
Qed.
Lemma SIM_expr e : SIM (S_expr e).
Proof.
  intros σ σ' Si Sh HV St Hr Hf Hn H. pose proof (proj1 (proj1 St)) as L. cbn [build_stmt] in H. destruct (build_expr e σ) as [[id σ1]| | |] eqn:E; try discriminate. cbn [obind] in H. injection H as ->.
  destruct (expr_stmt_sem oper conv ext konst_val llvm19 op_fun fsig args e σ id σ' Si HV Hf E) as (xs & X & Sem). split; [eapply vext_sext; eauto|].
  intros F G ρ s n HF HG Hg HM Hk. specialize (Sem G ρ s HG Hg HM). pose proof (straight_here F xs σ σ' s HF (s_blks _ _ _ _ X) (s_cur _ _ _ _ X) L) as S1.
  cbn [denote_stmt Codegen_Spec.exec]. unfold agrees in Sem. destruct (exec_expr ρ (world s) (denote e)) as [[ρ' w']| | |]; cbn [obind]; try contradiction.
  - destruct Sem as (s' & Ex & HM' & Hw & Hk'). rewrite Ex in S1. destruct S1 as (m & S1). exists m, s', (here σ' s'). split; [reflexivity|]. split; [assumption|]. split; [assumption|]. split; [assumption|].
    intros k Ek. rewrite (Hk' k Ek). auto.
  - now rewrite Sem in S1.
Qed.
Lemma SIM_break p : SIM (S_break p).
Proof.
  intros σ σ' Si Sh HV St Hr Hf Hn H. pose proof (proj1 (proj1 St)) as L. cbn [build_stmt] in H. unfold break_ir in H. destruct (loops σ) as [|[c b] ls] eqn:El; [discriminate|]. injection H as <-.
  split; [apply vext_eq; [assumption|apply vars_put]|]. intros F G ρ s n HF HG Hg HM Hk. cbn [denote_stmt Codegen_Spec.exec]. rewrite El. exists 1, s, (Pt b 0 s). split; [reflexivity|]. split; [now apply jump|]. split; [reflexivity|]. split; assumption.
Qed.
Lemma SIM_continue p : SIM (S_continue p).
Proof.
  intros σ σ' Si Sh HV St Hr Hf Hn H. pose proof (proj1 (proj1 St)) as L. cbn [build_stmt] in H. unfold continue_ir in H. destruct (loops σ) as [|[c b] ls] eqn:El; [discriminate|]. injection H as <-.
  split; [apply vext_eq; [assumption|apply vars_put]|]. intros F G ρ s n HF HG Hg HM Hk. cbn [denote_stmt Codegen_Spec.exec]. rewrite El. exists 1, s, (Pt c 0 s). split; [reflexivity|]. split; [now apply jump|]. split; [reflexivity|]. split; assumption.
Qed.
Lemma closing_flow F e σ s : grows F (closing e σ) -> cur σ < len σ -> cur_term σ = false -> steps F 1 (here σ s) (Pt e 0 s).
Proof. unfold closing. intros HF L E. rewrite E in HF. now apply jump. Qed.
Lemma ipre_closing e σ : ipre σ (closing e σ).
Proof. unfold closing. destruct (cur_term σ); [apply ipre_refl|apply ipre_put]. Qed.
Lemma SIM_while c b : SIML b -> SIM (S_while c b).
Proof.
  intros IH σ σ' Si Sh HV St Hr Hf Hn H. cbn [denote_stmt simple declares] in *. apply andb_true_iff in Si as [Si1 Si2]. pose proof (proj1 (proj1 St)) as L. change (shaped_list (map denote_stmt b) = true) in Sh.
  destruct (while_parts _ _ _ c b σ σ' Sh H St) as (σ6 & id & σ7 & o & σ8 & σ10 & σ11 & EC & EL & EB & V6 & V10 & V' & (C6 & I6 & C10 & I10 & C' & I') & (P6 & P10 & P11 & P') & S10 & R6 & (Lo & Xb & Rt) & Ct & L11).
  set (n0 := len σ) in *. assert (VI σ6) as HV6 by (eapply VI_eq; eauto).
  pose proof (iext_cond _ _ _ _ _ _ _ EC) as X7. assert (cur σ7 < len σ7) as L7. { rewrite (m_cur _ _ (proj1 X7)), (iext_len _ _ X7). apply R6. }
  destruct (test_flow c σ6 id σ7 σ7 o σ8 (S (S n0)) (S n0) Si1 HV6 EC (vars_refl _) EL eq_refl (fun _ => eq_refl) (proj1 R6) L7) as (VX8 & P7 & P8 & TF).
  assert (vext σ σ10 []) as VX10. { eapply vext_trans0; [exact (vext_eq _ _ HV V6)|]. eapply vext_trans0; [exact VX8|]. apply vext_eq; [apply VX8|assumption]. }
  assert (ret_slot σ10 = ret_slot σ) as Rs. { rewrite (e_rslot _ _ V10). pose proof (iext_load _ _ _ _ EL) as X8. rewrite (m_rslot _ _ (proj1 X8)), (m_rslot _ _ (proj1 X7)). apply V6. }
  destruct (IH σ10 σ11 Si2 Sh (v_vi _ _ _ VX10) S10) as [X11 R11]; auto. { unfold rets. now rewrite Rs, Rt. } { unfold fresh in *. eapply Forall_impl; [|exact Hf]. cbn beta. intros x (A & B). split; [|exact B]. destruct (find_text (named σ10) x) eqn:E; [|reflexivity]. destruct (v_new _ _ _ VX10 x) as [Q|[]]; congruence. }
  split. { eapply vext_trans0; [exact VX10|]. eapply vext_trans1; [exact X11|]. apply vext_eq; [apply X11|assumption]. }
  intros F G ρ s n HF HG Hg HM Hk. rewrite exec_while.
  assert (gsub σ11 G) as Hg11. { intros x p Hx. apply Hg. now rewrite (gvar_eq _ _ _ V'). } assert (gsub σ10 G) as Hg10 by (eapply gsub_trans; eauto).
  assert (gsub σ6 G) as Hg6. { intros x p Hx. apply Hg10. apply (v_gsub _ _ _ (vext_trans0 _ _ _ _ VX8 (vext_eq _ _ (v_vi _ _ _ VX8) V10))), Hx. }
  assert (grows F (closing n0 σ11)) as HFc by (eapply grows_ipre; eauto). assert (grows F σ11) as HF11 by (eapply grows_ipre; [apply ipre_closing|exact HFc]).
  assert (grows F σ10) as HF10 by (eapply grows_ipre; eauto). assert (grows F (put (CondBr o (S (S n0)) (S n0)) σ8)) as HF8 by (eapply grows_ipre; eauto).
  assert (grows F σ6) as HF6. { eapply grows_ipre; [exact P7|]. eapply grows_ipre; [exact P8|]. eapply grows_ipre; [apply ipre_put|exact HF8]. }
  assert (grows F (put (Br n0) σ)) as HF0 by (eapply grows_ipre; eauto).
  eapply res_pre; [apply (jump F n0 σ s HF0 L)|]. assert (forall s, here σ6 s = Pt n0 0 s) as H6 by (intros; unfold here; now rewrite C6, I6).
  assert (forall s, here σ10 s = Pt (S (S n0)) 0 s) as H10 by (intros; unfold here; now rewrite C10, I10). assert (forall s, here σ' s = Pt (S n0) 0 s) as H' by (intros; unfold here; now rewrite C', I').
  cut (forall k ρ s, k <= n -> MG G s ρ -> retok (ret_slot σ) s -> res F k (loops σ) (exit_b σ) (ret_slot σ) G (here σ') (Pt n0 0 s) (exec_loop (ret_ty σ) n (denote c) (map denote_stmt b) k ρ (world s))).
  { intros Q. apply Q; auto. }
  clear ρ s HM Hk. induction k as [|k IHk]; intros ρ s Hle HM Hk. { cbn [exec_loop]. exists 0, (Pt n0 0 s). split; [lia|reflexivity]. }
  cbn [exec_loop]. destruct (TF F G (ret_slot σ) ρ s HF8 HG Hg6 HM) as [[B1 (m & q & B2)]|(m & s1 & t & Hm & S1 & Sl & Ev)]; rewrite H6 in *.
  { rewrite B1. cbn [obind]. exists m, q. assumption. }
  rewrite Ev. cbn [obind]. assert (MG G s1 ρ) as HM1 by (eapply MG_slots; eauto). assert (retok (ret_slot σ) s1) as Hk1 by (intros j Hj; rewrite Sl; auto).
  destruct t; cbn [negb].
  2:{ exists m, s1, (here σ' s1). split; [reflexivity|]. split; [now rewrite H'|]. split; [reflexivity|]. split; assumption. }
  specialize (R11 F G ρ s1 n HF11). rewrite Rs, Lo, Xb, Rt, H10 in R11. specialize (R11 HG Hg11 HM1 Hk1).
  pose proof (fun ρ' w' => execs_next' (ret_ty σ) n (map denote_stmt b) ρ (world s1) ρ' w') as Nx.
  destruct (execs (ret_ty σ) n ρ (world s1) (map denote_stmt b)) as [[[g ρ2] w2]| | |]; cbn [obind].
  - destruct R11 as (m2 & s2 & q & Gq & S2 & Hw & Af). subst w2.
    assert (forall p, steps F m2 (Pt (S (S n0)) 0 s1) p -> steps F (m + m2) (Pt n0 0 s) p) as S12 by (intros; eapply steps_trans; eauto).
    assert (forall m3, res F k (loops σ) (exit_b σ) (ret_slot σ) G (here σ') (Pt n0 0 s2) (exec_loop (ret_ty σ) n (denote c) (map denote_stmt b) k ρ2 (world s2)) -> steps F m3 q (Pt n0 0 s2) ->
      res F (S k) (loops σ) (exit_b σ) (ret_slot σ) G (here σ') (Pt n0 0 s) (exec_loop (ret_ty σ) n (denote c) (map denote_stmt b) k ρ2 (world s2))) as Go.
    { intros m3 Q1 Q2. assert (steps F ((m + m2) + m3) (Pt n0 0 s) (Pt n0 0 s2)) as S3 by (eapply steps_trans; [apply S12; exact S2|exact Q2]).
      unfold res in Q1 |- *. destruct (exec_loop _ _ _ _ k ρ2 (world s2)) as [[[g' ρ'] w']| | |]; auto.
      - destruct Q1 as (j & s' & x & A & B & C). exists ((m + m2 + m3) + j), s', x. split; [assumption|]. split; [eapply steps_trans; eauto|assumption].
      - destruct Q1 as (j & x & A & B). exists ((m + m2 + m3) + j), x. split; [eapply steps_trans; eauto|assumption].
      - destruct Q1 as (j & x & A & B). exists ((m + m2 + m3) + j), x. split; [lia|eapply steps_trans; eauto]. }
    destruct g as [| | |v]; cbn [goes] in Gq; injection Gq as <-.
    + destruct Af as [A1 A2]. apply (Go 1); [apply IHk; auto; lia|]. apply closing_flow; auto. rewrite Ct. eapply Nx. reflexivity.
    + exists (m + m2), s2, (here σ' s2). split; [reflexivity|]. split; [rewrite H'; now apply S12|]. split; [reflexivity|]. exact Af.
    + destruct Af as [A1 A2]. apply (Go 0); [apply IHk; auto; lia|reflexivity].
    + exists (m + m2), s2, (Pt (exit_b σ) 0 s2). split; [reflexivity|]. split; [now apply S12|]. split; [reflexivity|]. exact Af.
  - exact R11.
  - destruct R11 as (m2 & q & A & B). exists (m + m2), q. split; [eapply steps_trans; eauto|assumption].
  - destruct R11 as (m2 & q & A & B). exists (m + m2), q. split; [lia|eapply steps_trans; eauto].
Qed.
(** *** if *)
Lemma branch_sim ss P bb Q e σ0 σ1 σ2 : SIML ss -> forallb simple (map denote_stmt ss) = true -> shaped_list (map denote_stmt ss) = true -> stays σ0 -> rets σ0 -> P = dests σ0 ->
  frame P (bb :: Q) σ0 σ1 true -> kept σ0 σ1 -> (forall b, In b (bb :: Q) -> insd σ1 b = true) -> In e Q -> VI σ1 ->
  fresh σ1 (flat_map declares (map denote_stmt ss)) -> NoDup (flat_map declares (map denote_stmt ss)) ->
  blist ss (set_cur bb σ1) = Ret σ2 ->
  vext σ1 (closing e σ2) (flat_map declares (map denote_stmt ss)) /\ ipre σ1 (closing e σ2) /\
  forall F G ρ s n, grows F (closing e σ2) -> Gok G (ret_slot σ0) -> gsub (closing e σ2) G -> MG G s ρ -> retok (ret_slot σ0) s ->
    res F n (loops σ0) (exit_b σ0) (ret_slot σ0) G (Pt e 0) (Pt bb 0 s) (execs (ret_ty σ0) n ρ (world s) (map denote_stmt ss)).
Proof.
  intros IH Si Sh St Hr HP F0 K HI He HV Hf Hn H. destruct (branch_frame llvm19 op_fun fsig ss P bb Q e σ0 σ1 σ2 (shapes _ _ _ ss) Sh St HP F0 K HI He H) as (St1 & FB & _).
  assert (VI (set_cur bb σ1)) as HV1 by (eapply VI_eq; [apply vars_cur|exact HV]).
  destruct (IH (set_cur bb σ1) σ2 Si Sh HV1 St1) as [X R]; auto. { unfold rets. cbn [set_cur ret_slot ret_ty]. rewrite (k_rslot _ _ K), (k_rty _ _ K). exact Hr. }
  assert (vars_eq σ2 (closing e σ2)) as Vc by apply vars_end.
  split. { eapply vext_trans0; [exact (vext_eq _ _ HV (vars_cur bb σ1))|]. eapply vext_trans1; [exact X|]. apply vext_eq; [apply X|assumption]. }
  split. { eapply ipre_trans; [|apply ipre_closing]. apply (ipre_frame _ _ _ _ _ FB). }
  intros F G ρ s n HF HG Hg HM Hk. assert (grows F σ2) as HF2 by (eapply grows_ipre; [apply ipre_closing|exact HF]).
  assert (gsub σ2 G) as Hg2. { intros x p Hx. apply Hg. now rewrite (gvar_eq _ _ _ Vc). }
  unfold flows in R. cbn [set_cur loops exit_b ret_slot ret_ty] in R. rewrite (k_loops _ _ K), (k_exit _ _ K), (k_rty _ _ K), (k_rslot _ _ K) in R. specialize (R F G ρ s n HF2 HG Hg2 HM Hk).
  assert (here (set_cur bb σ1) s = Pt bb 0 s) as Eh. { unfold here. cbn [set_cur cur blks]. destruct (f_pend _ _ _ _ _ F0 bb) as (_ & _ & ->); [cbn; auto|reflexivity]. }
  rewrite Eh in R. eapply res_nx; [|exact R]. intros ρ' w' s' E. exists 1. apply closing_flow; [assumption|fr FB|]. rewrite (term_last _ _ _ _ _ FB). eapply execs_next'; eauto.
Qed.
Definition den_elif (x : operand * list stmt) : expr * list st := match x with (c, b) => (denote c, map denote_stmt b) end.
Definition elif_simple (x : operand * list stmt) : bool := pure (denote (fst x)) && forallb simple (map denote_stmt (snd x)).
Definition elif_declares (x : operand * list stmt) : list text := flat_map declares (map denote_stmt (snd x)).
Lemma elifs_sim l : Forall (fun x => SIML (snd x)) l -> forall els el e es σ0 σ1 σ2 P, forallb elif_simple l = true -> forallb elif_shaped l = true -> stays σ0 -> rets σ0 -> P = dests σ0 ->
  frame P (flatp es ++ tail_blocks el e) σ0 σ1 true -> kept σ0 σ1 -> (forall b, In b (flatp es ++ tail_blocks el e) -> insd σ1 b = true) -> length es = length l -> VI σ1 ->
  fresh σ1 (flat_map elif_declares l) -> NoDup (flat_map elif_declares l) ->
  build_elifs llvm19 op_fun fsig blist el e l es σ1 = Ret σ2 ->
  vext σ1 σ2 (flat_map elif_declares l) /\ ipre σ1 σ2 /\
  forall F G n, grows F σ2 -> Gok G (ret_slot σ0) -> gsub σ2 G ->
    (forall ρ s, MG G s ρ -> retok (ret_slot σ0) s -> res F n (loops σ0) (exit_b σ0) (ret_slot σ0) G (Pt e 0) (Pt (next_block [] el e) 0 s) (exec_else (ret_ty σ0) n els ρ (world s))) ->
    forall ρ s, MG G s ρ -> retok (ret_slot σ0) s -> res F n (loops σ0) (exit_b σ0) (ret_slot σ0) G (Pt e 0) (Pt (next_block es el e) 0 s) (exec_elifs (ret_ty σ0) n els ρ (world s) (map den_elif l)).
Proof.
  induction 1 as [|[c ss] l Hss Hl IH]; intros els el e es σ0 σ1 σ2 P Si Sh St Hr HP F K HI Hlen HV Hf Hn H; destruct es as [|[cb bb] es]; try discriminate Hlen.
  { injection H as <-. split; [apply vext_eq; [assumption|apply vars_refl]|]. split; [apply ipre_refl|]. intros F1 G n HF HG Hg He ρ s HM Hk. apply He; auto. }
  cbn [snd] in Hss. cbn [forallb] in Sh, Si. apply andb_true_iff in Sh as [Sh1 Sh2]. unfold elif_shaped in Sh1. cbn [snd] in Sh1. apply andb_true_iff in Sh1 as [Sh1 Sh3].
  apply andb_true_iff in Si as [Si1 Si2]. unfold elif_simple in Si1. cbn [fst snd] in Si1. apply andb_true_iff in Si1 as [Si1 Si3].
  cbn [flat_map] in Hf, Hn |- *. change (elif_declares (c, ss)) with (flat_map declares (map denote_stmt ss)) in *. destruct (fresh_app _ _ _ Hf) as [Hf1 Hf2]. destruct (NoDup_app_inv _ _ Hn) as [Hn1 Hn2].
  change (flatp ((cb, bb) :: es)) with (cb :: bb :: flatp es) in *. cbn [app] in F, HI. cbn [length] in Hlen. injection Hlen as Hlen.
  cbn [build_elifs] in H. pose proof (proj1 (proj1 St)) as Hc.
  pose proof (frame_goto _ [] _ _ _ _ Hc F (HI cb (or_introl eq_refl))) as F1. cbn [app] in F1. assert (kept σ0 (set_cur cb σ1)) as K1 by (eapply kept_trans; [exact K|apply kept_cur]).
  set (Q := flatp es ++ tail_blocks el e) in *. assert (In e Q) as HeQ by (unfold Q, tail_blocks; apply in_or_app; right; apply in_or_app; cbn; auto).
  destruct (build_cond llvm19 op_fun fsig c (set_cur cb σ1)) as [[id s1]| | |] eqn:E1; try discriminate. cbn [obind] in H.
  destruct (branch_ir id bb (next_block es el e) s1) as [s2| | |] eqn:E2; try discriminate. cbn [obind] in H.
  unfold branch_ir in E2. destruct (load_value id s1) as [[o s7]| | |] eqn:EL; try discriminate. cbn [obind] in E2. injection E2 as <-. set (s3 := put (CondBr o bb (next_block es el e)) s7) in *.
  assert (branch_ir id bb (next_block es el e) s1 = Ret (set_cur bb s3)) as E2 by (unfold branch_ir; now rewrite EL).
  destruct (test_frame llvm19 op_fun fsig c id P (bb :: Q) σ0 (set_cur cb σ1) s1 (set_cur bb s3) bb (next_block es el e) e) as (s3' & Es3 & F3 & K3 & I3 & _); auto.
  { intros b Hb. apply HI. cbn. cbn in Hb. tauto. } { cbn; auto. } { right. apply next_block_in. } { cbn; auto. }
  assert (frame P (bb :: Q) σ0 s3 true /\ kept σ0 s3 /\ (forall b, In b (bb :: Q) -> insd s3 b = true)) as (F3' & K3' & I3').
  { assert (blks s3' = blks s3 /\ loops s3' = loops s3 /\ exit_b s3' = exit_b s3 /\ ret_ty s3' = ret_ty s3 /\ ret_slot s3' = ret_slot s3) as (A1 & A2 & A3 & A4 & A5). { destruct s3', s3. cbn in Es3. injection Es3. intros. subst. cbn. auto. }
    assert (kept σ0 s3) as K3'. { destruct K3. constructor; congruence. } assert (forall b, In b (bb :: Q) -> insd s3 b = true) as I3' by (intros b Hb; rewrite <- A1; auto). split; [|auto].
    (* the frame, built again *)
    pose proof (iext_trans _ _ _ (iext_cond _ _ _ _ _ _ _ E1) (iext_load _ _ _ _ EL)) as X. pose proof (frame_trans _ _ _ _ _ _ Hc F1 (frame_iext P _ _ (ready_frame _ _ _ _ F1) X)) as F7.
    apply frame_term; auto. intros x [<-|[<-|[]]]; right; (split; [|rewrite (iext_insd _ _ _ X); apply HI]).
    - apply (f_pend _ _ _ _ _ F1); cbn; auto.
    - cbn; auto.
    - apply (f_pend _ _ _ _ _ F1). right. apply next_block_in.
    - right. right. apply next_block_in. }
  clear s3' Es3 F3 K3 I3.
  destruct (blist ss (set_cur bb s3)) as [s4| | |] eqn:E4; try discriminate. cbn [obind] in H.
  destruct (branch_frame llvm19 op_fun fsig ss P bb Q e σ0 s3 s4 (shapes _ _ _ ss) Sh1 St HP F3' K3' I3' HeQ E4) as (_ & _ & F4 & K4 & I4 & HP4 & Eb). rewrite (Eb Sh3) in H.
  assert (VI (set_cur cb σ1)) as HV1 by (eapply VI_eq; [apply vars_cur|exact HV]).
  assert (cur (set_cur cb σ1) < len (set_cur cb σ1)) as L1 by fr F1.
  pose proof (iext_cond _ _ _ _ _ _ _ E1) as X1. assert (cur s1 < len s1) as Ls1. { rewrite (m_cur _ _ (proj1 X1)), (iext_len _ _ X1). exact L1. }
  destruct (test_flow c (set_cur cb σ1) id s1 s1 o s7 bb (next_block es el e) Si1 HV1 E1 (vars_refl _) EL eq_refl (fun _ => eq_refl) L1 Ls1) as (VX7 & P1 & P7 & TF). fold s3 in TF.
  assert (vext σ1 s3 []) as VX3. { eapply vext_trans0; [exact (vext_eq _ _ HV (vars_cur cb σ1))|]. eapply vext_trans0; [exact VX7|]. apply vext_eq; [apply VX7|apply vars_put]. }
  destruct (branch_sim ss P bb Q e σ0 s3 s4 Hss Si3 Sh1 St Hr HP F3' K3' I3' HeQ (v_vi _ _ _ VX3) (fresh_next0 _ _ _ VX3 Hf1) Hn1 E4) as (X4 & P4 & R4).
  destruct (IH els el e es σ0 (closing e s4) σ2 P) as (X5 & P5 & R5); auto. { apply X4. } { eapply fresh_next; [exact X4|exact (fresh_next0 _ _ _ VX3 Hf2)|assumption]. }
  split. { eapply vext_trans0; [exact VX3|]. eapply vext_trans; eauto. }
  assert (ipre σ1 s3) as P3. { eapply ipre_trans; [exact P1|]. eapply ipre_trans; [exact P7|apply ipre_put]. }
  split. { eapply ipre_trans; [exact P3|]. eapply ipre_trans; eauto. }
  intros F' G n HF HG Hg He ρ s HM Hk. assert (grows F' (closing e s4)) as HF4 by (eapply grows_ipre; eauto). assert (grows F' s3) as HF3 by (eapply grows_ipre; eauto).
  assert (gsub (closing e s4) G) as Hg4 by (eapply gsub_trans; eauto). assert (gsub s3 G) as Hg3 by (eapply gsub_trans; eauto). assert (gsub σ1 G) as Hg1 by (eapply gsub_trans; eauto).
  destruct (TF F' G (ret_slot σ0) ρ s HF3 HG Hg1 HM) as [[B1 B2]|(m & s' & t & Hm & S1 & Sl & Ev)]; cbn [map den_elif exec_elifs next_block].
  all: assert (here (set_cur cb σ1) s = Pt cb 0 s) as Eh by (unfold here; cbn [set_cur cur blks]; destruct (f_pend _ _ _ _ _ F cb) as (_ & _ & ->); [cbn; auto|reflexivity]); rewrite Eh in *.
  { rewrite B1. exact B2. }
  rewrite Ev. cbn [obind]. assert (MG G s' ρ) as HM' by (eapply MG_slots; eauto). assert (retok (ret_slot σ0) s') as Hk' by (intros j Hj; rewrite Sl; auto).
  eapply res_pre; [exact S1|]. destruct t; [now apply R4|now apply R5].
Qed.
Lemma SIM_if c b es el : SIML b -> Forall (fun x => SIML (snd x)) es -> oall SIML el -> SIM (S_ifelse c b es el).
Proof.
  intros IHb IHes IHel σ σ' Si Sh HV St Hr Hf Hn H. pose proof (proj1 (proj1 St)) as L.
  destruct (if_parts _ _ _ c b es el σ σ' Sh H St) as ((Sb & Ses & Sel) & id & σ1 & s4 & o & s7 & ib & eb & lb & e & sb & s8 & s9 & EC & EL & V4 & C4 & M4 & L4 & (F6 & K6 & I6 & Hle) & EB & E8 & Hel & -> & HP9). clear H.
  set (s6 := put (CondBr o ib (next_block eb lb e)) s7) in *. set (Q := flatp eb ++ tail_blocks lb e) in *.
  assert (In e Q) as HeQ by (unfold Q, tail_blocks; apply in_or_app; right; apply in_or_app; cbn; auto).
  assert (pure (denote c) = true /\ forallb simple (map denote_stmt b) = true /\ forallb elif_simple es = true /\ match el with Some ss => forallb simple (map denote_stmt ss) | None => true end = true) as (Si1 & Si2 & Si3 & Si4).
  { cbn [denote_stmt simple] in Si. apply andb_true_iff in Si as [Si S4]. apply andb_true_iff in Si as [Si S3]. apply andb_true_iff in Si as [S1 S2]. split; [exact S1|]. split; [exact S2|]. split.
    - clear - S3. induction es as [|[c' b'] es IH]; [reflexivity|]. cbn [map forallb] in S3. apply andb_true_iff in S3 as [A B]. cbn [forallb]. apply andb_true_iff. split; [exact A|]. apply IH. exact B.
    - destruct el; [exact S4|reflexivity]. }
  set (de := match el with Some ss => flat_map declares (map denote_stmt ss) | None => [] end).
  assert (declares (denote_stmt (S_ifelse c b es el)) = flat_map declares (map denote_stmt b) ++ flat_map elif_declares es ++ de) as Ed.
  { cbn [denote_stmt declares]. f_equal. f_equal; [|unfold de; destruct el; reflexivity]. clear. induction es as [|[c' b'] es IH]; [reflexivity|]. cbn [map flat_map]. rewrite IH. reflexivity. }
  rewrite Ed in *. destruct (fresh_app _ _ _ Hf) as [Hf1 Hf']. destruct (fresh_app _ _ _ Hf') as [Hf2 Hf3]. destruct (NoDup_app_inv _ _ Hn) as [Hn1 Hn']. destruct (NoDup_app_inv _ _ Hn') as [Hn2 Hn3].
  destruct (test_flow c σ id σ1 s4 o s7 ib (next_block eb lb e) Si1 HV EC V4 EL C4 M4 L L4) as (VX7 & P1 & P7 & TF). fold s6 in TF.
  assert (vext σ s6 []) as VX6. { eapply vext_trans0; [exact VX7|]. apply vext_eq; [apply VX7|apply vars_put]. }
  destruct (branch_frame llvm19 op_fun fsig b (dests σ) ib Q e σ s6 sb (shapes _ _ _ b) Sb St eq_refl F6 K6 I6 HeQ EB) as (_ & _ & Fb & Kb & Ib & _).
  destruct (branch_sim b (dests σ) ib Q e σ s6 sb IHb Si2 Sb St Hr eq_refl F6 K6 I6 HeQ (v_vi _ _ _ VX6) (fresh_next0 _ _ _ VX6 Hf1) Hn1 EB) as (Xb & Pb & Rb).
  assert (Forall (fun x => SHL llvm19 op_fun fsig (snd x)) es) as SHes by (apply Forall_forall; intros; apply shapes).
  destruct (elifs_frame llvm19 op_fun fsig es SHes lb e eb σ (closing e sb) s8 (dests σ) Ses St eq_refl Fb Kb Ib Hle E8) as (F8 & K8 & I8 & _).
  assert (fresh (closing e sb) (flat_map elif_declares es ++ de)) as Hfb by (eapply fresh_next; [exact Xb|exact (fresh_next0 _ _ _ VX6 Hf')|exact Hn]). destruct (fresh_app _ _ _ Hfb) as [Hfb2 Hfb3].
  set (els := match el with Some ss => Some (map denote_stmt ss) | None => None end).
  destruct (elifs_sim es IHes els lb e eb σ (closing e sb) s8 (dests σ) Si3 Ses St Hr eq_refl Fb Kb Ib Hle (v_vi _ _ _ Xb) Hfb2 Hn2 E8) as (X8 & P8 & R8).
  assert (fresh s8 de) as Hf8 by (eapply fresh_next; [exact X8|exact Hfb3|exact Hn']).
  assert (vext s8 s9 de /\ ipre s8 s9 /\ frame (dests σ) [e] σ s9 true /\ forall F G ρ s n, grows F s9 -> Gok G (ret_slot σ) -> gsub s9 G -> MG G s ρ -> retok (ret_slot σ) s ->
     res F n (loops σ) (exit_b σ) (ret_slot σ) G (Pt e 0) (Pt (next_block [] lb e) 0 s) (exec_else (ret_ty σ) n els ρ (world s))) as (X9 & P9 & F9 & R9).
  { destruct el as [ss|], lb as [l|]; try contradiction.
    - destruct Hel as (sl & EBl & ->). apply andb_true_iff in Sel as [Sel1 Sel2]. cbn [oall] in IHel.
      destruct (branch_frame llvm19 op_fun fsig ss (dests σ) l [e] e σ s8 sl (shapes _ _ _ ss) Sel1 St eq_refl F8 K8 I8 (or_introl eq_refl) EBl) as (_ & _ & F9 & K9 & I9 & _ & Eb). rewrite (Eb Sel2).
      destruct (branch_sim ss (dests σ) l [e] e σ s8 sl IHel Si4 Sel1 St Hr eq_refl F8 K8 I8 (or_introl eq_refl) (v_vi _ _ _ X8) Hf8 Hn3 EBl) as (X9 & P9 & R9).
      split; [assumption|]. split; [assumption|]. split; [assumption|]. exact R9.
    - subst s9. split; [apply vext_eq; [apply X8|apply vars_refl]|]. split; [apply ipre_refl|]. split; [exact F8|]. intros F G ρ s n HF HG Hg HM Hk. exists 0, s, (Pt e 0 s). split; [reflexivity|]. split; [reflexivity|]. split; [reflexivity|]. split; assumption. }
  assert (vars_eq s9 (finish_condition e s9)) as Vf. { unfold finish_condition. destruct (negb (has_pred e s9)); [apply vars_ins|apply vars_cur]. }
  assert (ipre s9 (finish_condition e s9)) as Pf. { apply ipre_eq. intros z. unfold finish_condition. destruct (negb (has_pred e s9)); [apply items_insert|reflexivity]. }
  split. { eapply vext_trans0; [exact VX6|]. eapply vext_trans; [exact Xb|]. eapply vext_trans; [exact X8|]. eapply vext_trans1; [exact X9|]. apply vext_eq; [apply X9|exact Vf]. }
  intros F G ρ s n HF HG Hg HM Hk. assert (grows F s9) as HF9 by (eapply grows_ipre; eauto). assert (grows F s8) as HF8 by (eapply grows_ipre; eauto). assert (grows F (closing e sb)) as HFb by (eapply grows_ipre; eauto).
  assert (grows F s6) as HF6 by (eapply grows_ipre; eauto).
  assert (gsub s9 G) as Hg9. { intros x p Hx. apply Hg. now rewrite (gvar_eq _ _ _ Vf). } assert (gsub s8 G) as Hg8 by (eapply gsub_trans; eauto). assert (gsub (closing e sb) G) as Hgb by (eapply gsub_trans; eauto).
  assert (gsub s6 G) as Hg6 by (eapply gsub_trans; eauto). assert (gsub σ G) as Hg0 by (eapply gsub_trans; eauto).
  eapply res_nx with (nx := Pt e 0).
  { intros ρ' w' s' E. apply exec_next in E. rewrite E in HP9. cbn [negb] in HP9. exists 0. cbn [steps]. unfold here, finish_condition. rewrite HP9. cbn [negb set_cur cur blks].
    destruct (f_pend _ _ _ _ _ F9 e) as (_ & _ & ->); [cbn; auto|reflexivity]. }
  change (denote_stmt (S_ifelse c b es el)) with (StIf (denote c) (map denote_stmt b) (map den_elif es) els). rewrite exec_if.
  destruct (TF F G (ret_slot σ) ρ s HF6 HG Hg0 HM) as [[B1 B2]|(m & s' & t & Hm & S1 & Sl & Ev)]. { rewrite B1. exact B2. }
  rewrite Ev. cbn [obind]. assert (MG G s' ρ) as HM' by (eapply MG_slots; eauto). assert (retok (ret_slot σ) s') as Hk' by (intros j Hj; rewrite Sl; auto).
  eapply res_pre; [exact S1|]. destruct t; [now apply Rb|]. apply R8; auto.
Qed.
Lemma sim x : SIM x.
Proof.
  induction x as [e|e|c b IH|c b es el IHb IHes IHel|p|p] using stmt_ind2.
  - apply SIM_return.
  - apply SIM_expr.
  - now apply SIM_while, SIM_list.
  - apply SIM_if; [now apply SIM_list| |].
    + eapply Forall_impl; [|exact IHes]. intros x. apply SIM_list.
    + destruct el; [now apply SIM_list|exact I].
  - apply SIM_continue.
  - apply SIM_break.
Qed.
Lemma sims l : SIML l.
Proof. apply SIM_list. induction l; constructor; auto using sim. Qed.
End Sim.
