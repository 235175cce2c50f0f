(** Code generated for expressions computes the value of the tree. *)
From Coq Require Import Ascii String List Bool Arith ZArith Lia.
Import ListNotations.
From Verif Require Import Base Lexer_Model Lexer_Proofs Op_Model Op_Lemmas Number_Model Parser_Model Parser_Spec Parser_Print Ir_Model Codegen_Model Codegen_Spec Codegen_Lemmas.

Section E.
Context {V W : Type}.
Variable oper : optok -> vty -> list V -> option V.
Variable conv : vty -> vty -> V -> option V.
Variable ext : text -> W -> list V -> W * V.
Variable konst_val : konst -> V.
Variable llvm19 : bool.
Variable op_fun : optok -> vty -> option vty.
Variable fsig : text -> option (list vty * vty).
Variable args : list V.
Notation rt := (@rt V W).
Notation prim_sem := (ir_prim oper conv).
Notation opval := (@Ir_Model.opval V W konst_val args).
Notation opvals := (@Ir_Model.opvals V W konst_val args).
Notation exec_inst := (exec_inst prim_sem (total ext) konst_val args).
Notation convert := (convert conv).
Notation convert_all := (convert_all conv).
Notation apply_op := (apply_op oper conv llvm19 op_fun).
Notation apply_cond := (apply_cond oper conv llvm19 op_fun).
Notation result_type := (result_type llvm19 op_fun).
Notation eval := (eval oper conv (total ext) konst_val llvm19 op_fun fsig).

Fixpoint execi (xs : list inst) (s : rt) : outcome rt :=
  match xs with [] => Ret s | i :: xs' => do! s <- exec_inst s i; execi xs' s end.
Lemma execi_app xs ys s : execi (xs ++ ys) s = do! s <- execi xs s; execi ys s.
Proof. revert s. induction xs as [|i xs IH]; intros s; [reflexivity|]. cbn [app execi]. destruct (exec_inst s i); [apply IH| | |]; reflexivity. Qed.

(** Slots and old registers are kept. *)
Definition keeps (n : nat) (a b : rt) : Prop := slots b = slots a /\ forall r, r < n -> regs b r = regs a r.
Lemma keeps_refl n a : keeps n a a.
Proof. split; auto. Qed.
Lemma keeps_trans n m a b c : n <= m -> keeps n a b -> keeps m b c -> keeps n a c.
Proof. intros Hn [H1 H2] [H3 H4]. split; [congruence|]. intros r Hr. rewrite H4 by lia. auto. Qed.

(** What a value stands for *)
Definition den (s : rt) (v : value) : outcome V :=
  match v_loc v with
  | LNone => UB
  | LVal o => opval s o
  | LSlot k => match slots s k with Some (Some a) => Ret a | _ => UB end
  end.
Definition opok (n : nat) (o : opnd) : Prop := match o with OReg r => r < n | _ => True end.
Definition vok (n : nat) (v : value) : Prop := match v_loc v with LVal o => opok n o | _ => True end.
Definition objs_ok (σ : cg) : Prop := Forall (vok (nreg σ)) (objs σ).

Lemma opval_cases s o : opval s o = UB \/ exists a, opval s o = Ret a.
Proof. destruct o; cbn; [destruct (regs s r)|right|destruct (nth_error args i)]; eauto. Qed.
Lemma den_cases s v : den s v = UB \/ exists a, den s v = Ret a.
Proof. unfold den. destruct (v_loc v); [auto| |apply opval_cases]. destruct (slots s s0) as [[a|]|]; eauto. Qed.
Lemma opval_keeps n a b o : keeps n a b -> opok n o -> opval b o = opval a o.
Proof. intros [H1 H2] Ho. destruct o; cbn in *; auto. now rewrite H2. Qed.
Lemma den_keeps n a b v : keeps n a b -> vok n v -> den b v = den a v.
Proof. intros K Hv. unfold den. unfold vok in Hv. destruct (v_loc v); auto. - destruct K as [-> _]. reflexivity. - eapply opval_keeps; eauto. Qed.
Lemma vok_mono n m v : n <= m -> vok n v -> vok m v.
Proof. unfold vok, opok. destruct (v_loc v) as [| |[]]; auto. lia. Qed.
Lemma opok_mono n m o : n <= m -> opok n o -> opok m o.
Proof. destruct o; cbn; lia. Qed.
Lemma objs_nth σ id v : objs_ok σ -> nth_error (objs σ) id = Some v -> vok (nreg σ) v.
Proof. intros H E. unfold objs_ok in H. rewrite Forall_forall in H. apply H. eapply nth_error_In; eauto. Qed.
Lemma pext_nth xs σ σ' id v : pext xs σ σ' -> nth_error (objs σ) id = Some v -> nth_error (objs σ') id = Some v.
Proof. intros H E. destruct (x_objs _ _ _ H) as (os & ->). rewrite nth_error_app1; auto. eapply nth_error_lt; eauto. Qed.

(** Pure code: it can only fail in an undefined operation. *)
Definition runs (n : nat) (xs : list inst) (bad : rt -> Prop) (good : rt -> rt -> Prop) : Prop :=
  forall s, (execi xs s = UB /\ bad s) \/ (exists s', execi xs s = Ret s' /\ keeps n s s' /\ world s' = world s /\ good s s').

Lemma runs_seq n m xs ys b1 g1 b2 g2 (bad : rt -> Prop) (good : rt -> rt -> Prop) :
  n <= m -> runs n xs b1 g1 -> runs m ys b2 g2 ->
  (forall s, b1 s -> bad s) ->
  (forall s s1, keeps n s s1 -> world s1 = world s -> g1 s s1 -> b2 s1 -> bad s) ->
  (forall s s1 s2, keeps n s s1 -> keeps m s1 s2 -> g1 s s1 -> g2 s1 s2 -> good s s2) ->
  runs n (xs ++ ys) bad good.
Proof.
  intros Hn H1 H2 B1 B2 G s. rewrite execi_app. destruct (H1 s) as [[E Hb]|(s1 & E & K1 & W1 & G1)]; rewrite E; cbn [obind].
  - left. auto.
  - destruct (H2 s1) as [[E2 Hb]|(s2 & E2 & K2 & W2 & G2)]; rewrite E2.
    + left. split; eauto.
    + right. exists s2. split; [reflexivity|]. split; [eapply keeps_trans; eauto|]. split; [congruence|]. eauto.
Qed.

(** *** Loads *)
Lemma load_sem id σ o σ' v : objs_ok σ -> nth_error (objs σ) id = Some v -> load_value id σ = Ret (o, σ') ->
  exists xs, pext xs σ σ' /\ objs_ok σ' /\ objs σ' = objs σ /\ opok (nreg σ') o /\
    runs (nreg σ) xs (fun s => den s v = UB) (fun s s' => opval s' o = den s v).
Proof.
  intros Hok Hv H. pose proof (objs_nth _ _ _ Hok Hv) as Vv. unfold load_value, obj in H. rewrite Hv in H. cbn [obind] in H. unfold den. unfold vok in Vv.
  destruct (v_loc v) as [|k|o'] eqn:E; [discriminate| |].
  - cbn [new_reg] in H. injection H as <- <-. rewrite put_emit.
    exists [ILoad (nreg σ) k]. split; [constructor; cbn; auto; exists []; now rewrite app_nil_r|]. split.
    { unfold objs_ok in *. cbn. eapply Forall_impl; [|exact Hok]. intros a. apply vok_mono. lia. }
    split; [reflexivity|]. split; [cbn; lia|]. intros s. cbn [execi Ir_Model.exec_inst].
    destruct (slots s k) as [[a|]|]; [right|left; auto|left; auto].
    eexists. split; [reflexivity|]. split; [split; [reflexivity|]; intros r Hr; cbn; unfold upd; destruct (Nat.eqb_spec r (nreg σ)); [lia|reflexivity]|].
    split; [reflexivity|]. cbn. unfold upd. now rewrite Nat.eqb_refl.
  - injection H as <- <-. exists []. split; [apply pext_refl|]. split; [assumption|]. split; [reflexivity|]. split; [assumption|].
    intros s. right. exists s. repeat split.
Qed.

Fixpoint load_list (ids : list nat) (σ : cg) : outcome (list opnd * cg) :=
  match ids with [] => Ret ([], σ) | id :: ids' => do! (o, σ) <- load_value id σ; do! (os, σ) <- load_list ids' σ; Ret (o :: os, σ) end.
Lemma load_list_sem ids : forall σ os σ' vs, objs_ok σ -> Forall2 (fun id v => nth_error (objs σ) id = Some v) ids vs ->
  load_list ids σ = Ret (os, σ') ->
  exists xs, pext xs σ σ' /\ objs_ok σ' /\ objs σ' = objs σ /\ Forall (opok (nreg σ')) os /\
    runs (nreg σ) xs (fun s => Exists (fun v => den s v = UB) vs) (fun s s' => Forall2 (fun v o => opval s' o = den s v) vs os).
Proof.
  induction ids as [|id ids IH]; intros σ os σ' vs Hok HF H; inversion HF; subst; cbn [load_list] in H.
  - injection H as <- <-. exists []. split; [apply pext_refl|]. split; [assumption|]. split; [reflexivity|]. split; [constructor|].
    intros s. right. exists s. repeat split. constructor.
  - destruct (load_value id σ) as [[o σ1]| | |] eqn:E; try discriminate. cbn [obind] in H.
    destruct (load_list ids σ1) as [[os1 σ2]| | |] eqn:E2; try discriminate. injection H as <- <-.
    rename y into v. match goal with H : nth_error _ id = Some v |- _ => rename H into Hv end.
    destruct (load_sem _ _ _ _ _ Hok Hv E) as (xs & X & O1 & Q1 & K1 & R1).
    destruct (IH σ1 os1 σ2 l') as (ys & Y & O2 & Q2 & K2 & R2); auto. { now rewrite Q1. }
    exists (xs ++ ys). split; [eapply pext_trans; eauto|]. split; [assumption|]. split; [congruence|].
    pose proof (x_nreg _ _ _ X). pose proof (x_nreg _ _ _ Y).
    split; [constructor; auto; eapply opok_mono; eauto|].
    assert (forall s s1, keeps (nreg σ) s s1 -> forall u, In u l' -> den s1 u = den s u) as Hk.
    { intros s s1 K u Hu. apply In_nth_error in Hu as (k & Hu). match goal with H : Forall2 _ ids l' |- _ => rename H into HF2 end.
      assert (exists i, nth_error (objs σ) i = Some u) as (i & Hi).
      { clear -HF2 Hu. revert k Hu. induction HF2; intros [|k] Hu; try discriminate; cbn in Hu; [injection Hu as <-; eauto|eauto]. }
      eapply den_keeps; [exact K|]. eapply objs_nth; eauto. }
    eapply runs_seq; [|exact R1|exact R2| | |]; auto.
    + intros s s1 K _ _ B. apply Exists_cons_tl. apply Exists_exists in B as (u & Hu & B). apply Exists_exists. exists u. split; auto. now rewrite <- (Hk s s1 K u Hu).
    + intros s s1 s2 K Kb G1 G2. constructor.
      * rewrite (opval_keeps _ _ _ _ Kb); auto.
      * clear -G2 Hk K. assert (forall u, In u l' -> den s1 u = den s u) as Hk' by (intros; eapply Hk; eauto). clear Hk.
        induction G2; constructor. { rewrite H. apply Hk'. now left. } apply IHG2. intros u Hu. apply Hk'. now right.
Qed.

(** *** Conversions *)
Definition cv (s : rt) (v : value) (t : vty) : outcome V := do! a <- den s v; convert (v_ty v, a) t.
Lemma cast_sem id t σ id' σ' v : objs_ok σ -> nth_error (objs σ) id = Some v -> cast_to id t σ = Ret (id', σ') ->
  exists xs v', pext xs σ σ' /\ objs_ok σ' /\ nth_error (objs σ') id' = Some v' /\ v_ty v' = t /\
    (v_ty v = t \/ exists n m, v_ty v = TNum n /\ t = TNum m) /\
    runs (nreg σ) xs (fun s => cv s v t = UB) (fun s s' => den s' v' = cv s v t).
Proof.
  intros Hok Hv H. unfold cast_to, obj in H. rewrite Hv in H. cbn [obind] in H. unfold cv, Codegen_Spec.convert.
  destruct (vty_eqb (v_ty v) t) eqn:E.
  - injection H as <- <-. apply vty_eqb_eq in E. exists [], v. split; [apply pext_refl|]. split; [assumption|]. split; [assumption|]. split; [assumption|]. split; [auto|].
    intros s. right. exists s. split; [reflexivity|]. split; [apply keeps_refl|]. split; [reflexivity|]. destruct (den s v); reflexivity.
  - destruct (can_cast (v_ty v) (Some t)) eqn:C; cbn [negb] in H; [|discriminate]. destruct t as [| |m]; try discriminate.
    destruct (v_ty v) as [| |n] eqn:Ev; cbn [vty_eqb vty_eq_dec] in H. { discriminate. } { cbn in C. discriminate. }
    replace (vty_eqb (TNum n) TVoid) with false in H by reflexivity.
    destruct (load_value id σ) as [[o σ1]| | |] eqn:EL; try discriminate. cbn [obind new_reg] in H. unfold new_value in H. injection H as <- <-.
    destruct (load_sem _ _ _ _ _ Hok Hv EL) as (xs & X & O1 & Q1 & K1 & R1).
    rewrite put_emit. set (σ2 := set_objs _ _).
    exists (xs ++ [IPrim (nreg σ1) (PCast (TNum n) (TNum m)) [o]]), (Val (TNum m) (LVal (OReg (nreg σ1)))).
    assert (pext [IPrim (nreg σ1) (PCast (TNum n) (TNum m)) [o]] σ1 σ2) as Y by (constructor; cbn; auto; eauto).
    split; [eapply pext_trans; eauto|]. split.
    { unfold objs_ok in *. cbn. apply Forall_app. split; [|repeat constructor; cbn; lia]. eapply Forall_impl; [|exact O1]. intros a. apply vok_mono. lia. }
    split. { cbn. rewrite nth_error_app2 by lia. rewrite Nat.sub_diag. reflexivity. }
    split; [reflexivity|]. split; [eauto|].
    eapply runs_seq with (m := nreg σ1) (b2 := fun s => opval s o = UB \/ exists a, opval s o = Ret a /\ conv (TNum n) (TNum m) a = None)
      (g2 := fun s s' => exists a b, opval s o = Ret a /\ conv (TNum n) (TNum m) a = Some b /\ regs s' (nreg σ1) = Some b); [apply X|exact R1| | | |].
    + intros s. cbn [execi Ir_Model.exec_inst Ir_Model.opvals]. destruct (opval_cases s o) as [EO|(a & EO)]; rewrite EO; cbn [obind]; [left; auto|].
      cbn [ir_prim]. destruct (conv (TNum n) (TNum m) a) as [b|] eqn:EC; [right|left; split; eauto].
      eexists. split; [reflexivity|]. split; [split; [reflexivity|]; intros r Hr; cbn; unfold upd; destruct (Nat.eqb_spec r (nreg σ1)); [lia|reflexivity]|].
      split; [reflexivity|]. exists a, b. cbn. unfold upd. rewrite Nat.eqb_refl. auto.
    + intros s B. rewrite B. reflexivity.
    + intros s s1 K Wd G [B|(a & B1 & B2)]; rewrite <- G.
      * rewrite B. reflexivity.
      * rewrite B1. cbv beta iota delta [obind]. rewrite B2. reflexivity.
    + intros s s1 s2 K Kb G (a & b & B1 & B2 & B3). rewrite <- G, B1. unfold den. cbn [v_loc Ir_Model.opval]. rewrite B3. cbv beta iota delta [obind]. rewrite B2. reflexivity.
Qed.
Lemma cv_cases s v t : (v_ty v = t \/ exists n m, v_ty v = TNum n /\ t = TNum m) -> cv s v t = UB \/ exists a, cv s v t = Ret a.
Proof.
  intros H. unfold cv. destruct (den_cases s v) as [E|(a & E)]; rewrite E; cbn [obind]; [auto|]. unfold Codegen_Spec.convert.
  destruct (vty_eqb (v_ty v) t) eqn:EQ; [eauto|]. destruct H as [H|(n & m & -> & ->)]. { subst. rewrite vty_eqb_refl in EQ. discriminate. }
  destruct (conv (TNum n) (TNum m) a); cbn; eauto.
Qed.
Lemma cv_keeps n a b v t : keeps n a b -> vok n v -> cv b v t = cv a v t.
Proof. intros K H. unfold cv. now rewrite (den_keeps _ _ _ _ K H). Qed.

Fixpoint cast_list (ids : list nat) (t : vty) (σ : cg) : outcome (list nat * cg) :=
  match ids with [] => Ret ([], σ) | id :: ids' => do! (i, σ) <- cast_to id t σ; do! (is, σ) <- cast_list ids' t σ; Ret (i :: is, σ) end.
Definition castable (t : vty) (v : value) : Prop := v_ty v = t \/ exists n m, v_ty v = TNum n /\ t = TNum m.
Lemma cast_list_sem t ids : forall σ ids' σ' vs, objs_ok σ -> Forall2 (fun id v => nth_error (objs σ) id = Some v) ids vs ->
  cast_list ids t σ = Ret (ids', σ') ->
  exists xs vs', pext xs σ σ' /\ objs_ok σ' /\ Forall2 (fun id v => nth_error (objs σ') id = Some v) ids' vs' /\
    Forall (castable t) vs /\ Forall (fun v => v_ty v = t) vs' /\
    runs (nreg σ) xs (fun s => Exists (fun v => cv s v t = UB) vs) (fun s s' => Forall2 (fun v v' => den s' v' = cv s v t) vs vs').
Proof.
  induction ids as [|id ids IH]; intros σ ids' σ' vs Hok HF H; inversion HF; subst; cbn [cast_list] in H.
  - injection H as <- <-. exists [], []. split; [apply pext_refl|]. split; [assumption|]. split; [constructor|]. split; [constructor|]. split; [constructor|].
    intros s. right. exists s. repeat split. constructor.
  - destruct (cast_to id t σ) as [[i σ1]| | |] eqn:E; try discriminate. cbn [obind] in H.
    destruct (cast_list ids t σ1) as [[is σ2]| | |] eqn:E2; try discriminate. injection H as <- <-.
    rename y into v. match goal with H : nth_error _ id = Some v |- _ => rename H into Hv end. match goal with H : Forall2 _ ids l' |- _ => rename H into HF2 end.
    destruct (cast_sem _ _ _ _ _ _ Hok Hv E) as (xs & v' & X & O1 & Q1 & T1 & C1 & R1).
    destruct (IH σ1 is σ2 l') as (ys & vs' & Y & O2 & Q2 & C2 & T2 & R2); auto.
    { clear -HF2 X. induction HF2; constructor; eauto using pext_nth. }
    exists (xs ++ ys), (v' :: vs'). split; [eapply pext_trans; eauto|]. split; [assumption|].
    split; [constructor; eauto using pext_nth|]. split; [constructor; auto|]. split; [constructor; auto|].
    assert (forall s s1, keeps (nreg σ) s s1 -> forall u, In u l' -> cv s1 u t = cv s u t) as Hk.
    { intros s s1 K u Hu. apply In_nth_error in Hu as (k & Hu).
      assert (exists i, nth_error (objs σ) i = Some u) as (j & Hj).
      { clear -HF2 Hu. revert k Hu. induction HF2; intros [|k] Hu; try discriminate; cbn in Hu; [injection Hu as <-; eauto|eauto]. }
      eapply cv_keeps; [exact K|]. eapply objs_nth; eauto. }
    eapply runs_seq with (m := nreg σ1); [apply X|exact R1|exact R2| | |]; auto.
    + intros s s1 K _ _ B. apply Exists_cons_tl. apply Exists_exists in B as (u & Hu & B). apply Exists_exists. exists u. split; auto. now rewrite <- (Hk s s1 K u Hu).
    + intros s s1 s2 K Kb G1 G2. constructor.
      * rewrite (den_keeps _ _ _ _ Kb); auto. eapply objs_nth; eauto.
      * clear -G2 Hk K. assert (forall u, In u l' -> cv s1 u t = cv s u t) as Hk' by (intros; eapply Hk; eauto). clear Hk.
        induction G2; constructor. { rewrite H. apply Hk'. now left. } apply IHG2. intros u Hu. apply Hk'. now right.
Qed.

(** *** Operators *)
Fixpoint sq (s : rt) (vs : list value) : outcome (list (vty * V)) :=
  match vs with [] => Ret [] | v :: vs' => do! a <- den s v; do! xs <- sq s vs'; Ret ((v_ty v, a) :: xs) end.
Lemma sq_cases s vs : sq s vs = UB \/ exists xs, sq s vs = Ret xs /\ map fst xs = map v_ty vs.
Proof.
  induction vs as [|v vs IH]; [right; exists []; auto|]. cbn [sq]. destruct (den_cases s v) as [E|(a & E)]; rewrite E; cbn [obind]; [auto|].
  destruct IH as [IH|(xs & IH & Hm)]; rewrite IH; cbn [obind]; [auto|]. right. eexists. split; [reflexivity|]. cbn. now rewrite Hm.
Qed.
Lemma sq_keeps n a b vs : keeps n a b -> Forall (vok n) vs -> sq b vs = sq a vs.
Proof.
  intros K H. induction H as [|v vs Hv _ IH]; [reflexivity|]. cbn [sq]. rewrite (den_keeps _ _ _ _ K Hv). rewrite IH. reflexivity.
Qed.
(** The value is computed into a register. *)
Definition computed (xs : list inst) (v : value) : Prop :=
  exists o, v_loc v = LVal o /\ forall s s', execi xs s = Ret s' -> exists a, den s' v = Ret a.
Definition produces (σ σ' : cg) (id : nat) (d : rt -> outcome (vty * V)) (P : Prop) : Prop :=
  exists xs v, pext xs σ σ' /\ objs_ok σ' /\ nth_error (objs σ') id = Some v /\
    runs (nreg σ) xs (fun s => d s = UB) (fun s s' => d s = do! a <- den s' v; Ret (v_ty v, a)) /\ (P -> computed xs v).
Lemma runs_computed n xs (d : rt -> outcome (vty * V)) v o : v_loc v = LVal o ->
  runs n xs (fun s => d s = UB) (fun s s' => d s = (do! a <- den s' v; Ret (v_ty v, a)) /\ exists a, den s' v = Ret a) ->
  runs n xs (fun s => d s = UB) (fun s s' => d s = do! a <- den s' v; Ret (v_ty v, a)) /\ (True -> computed xs v).
Proof.
  intros Hv R. split.
  - intros s. destruct (R s) as [B|(s' & E & K & W1 & G & _)]; [auto|]. right. exists s'. auto.
  - intros _. exists o. split; [assumption|]. intros s s' E. destruct (R s) as [[B _]|(s1 & E1 & _ & _ & _ & G)]; [congruence|]. rewrite E1 in E. injection E as <-. exact G.
Qed.
Lemma computed_app xs ys v : computed ys v -> computed (xs ++ ys) v.
Proof.
  intros (o & Ho & H). exists o. split; [assumption|]. intros s s' E. rewrite execi_app in E. destruct (execi xs s) as [s1| | |]; try discriminate. cbn [obind] in E. eauto.
Qed.

Lemma opvals_cv s s' t vs os : Forall (castable t) vs -> Forall2 (fun v o => opval s' o = cv s v t) vs os ->
  opvals s' os = do! xs <- sq s vs; convert_all xs t.
Proof.
  intros HC HF. induction HF as [|v o vs os E HF IH]; [reflexivity|]. inversion HC; subst. cbn [Ir_Model.opvals sq]. rewrite E, IH by auto.
  unfold cv at 1. destruct (den_cases s v) as [Ev|(a & Ev)]; rewrite Ev; cbn [obind]; [reflexivity|].
  destruct (sq_cases s vs) as [Es|(xs & Es & _)]; rewrite Es; cbn [obind Codegen_Spec.convert_all].
  - destruct (cv_cases s v t) as [EU|(b & EU)]; auto; unfold cv in EU; rewrite Ev in EU; cbn [obind] in EU; rewrite EU; reflexivity.
  - reflexivity.
Qed.

Lemma put_op_sem b op t res os σ id σ' : objs_ok σ -> Forall (opok (nreg σ)) os -> t <> TVoid ->
  b = core llvm19 op t -> (b = true -> res = if comparison op then TBit else t) ->
  put_op op_fun b op t res os σ = Ret (id, σ') ->
  exists i rty, result_type op t = Some rty /\ pext [i] σ σ' /\ objs_ok σ' /\
    nth_error (objs σ') id = Some (Val rty (LVal (OReg (nreg σ)))) /\
    runs (nreg σ) [i] (fun s => opvals s os = UB \/ exists vs, opvals s os = Ret vs /\ oper op t vs = None)
      (fun s s' => exists vs a, opvals s os = Ret vs /\ oper op t vs = Some a /\ regs s' (nreg σ) = Some a).
Proof.
  intros Hok Hos Ht Hb Hres H. unfold put_op in H. cbn [new_reg] in H.
  assert (forall p rty, p = POp op t \/ p = PFun op t -> result_type op t = Some rty ->
    (id, σ') = new_value rty (LVal (OReg (nreg σ))) (put (Ins (IPrim (nreg σ) p os)) (set_nreg (S (nreg σ)) σ)) ->
    exists i rty, result_type op t = Some rty /\ pext [i] σ σ' /\ objs_ok σ' /\
    nth_error (objs σ') id = Some (Val rty (LVal (OReg (nreg σ)))) /\
    runs (nreg σ) [i] (fun s => opvals s os = UB \/ exists vs, opvals s os = Ret vs /\ oper op t vs = None)
      (fun s s' => exists vs a, opvals s os = Ret vs /\ oper op t vs = Some a /\ regs s' (nreg σ) = Some a)) as G.
  { intros p rty Hp Hr E. unfold new_value in E. injection E as -> ->. rewrite put_emit. exists (IPrim (nreg σ) p os), rty. split; [assumption|].
    split; [constructor; cbn; auto; eauto|]. split.
    { unfold objs_ok in *. cbn. apply Forall_app. split; [|repeat constructor; cbn; lia]. eapply Forall_impl; [|exact Hok]. intros a. apply vok_mono. lia. }
    split. { cbn. rewrite nth_error_app2 by lia. rewrite Nat.sub_diag. reflexivity. }
    intros s. cbn [execi Ir_Model.exec_inst].
    assert (opvals s os = UB \/ exists vs, opvals s os = Ret vs) as [EO|(vs & EO)].
    { clear. induction os as [|o os IH]; [right; now exists []|]. cbn [Ir_Model.opvals]. destruct (opval_cases s o) as [E|(a & E)]; rewrite E; cbn [obind]; [auto|].
      destruct IH as [E2|(l & E2)]; rewrite E2; cbn [obind]; eauto. }
    - left. rewrite EO. cbn [obind]. auto.
    - rewrite EO. cbn [obind]. assert (prim_sem p vs = oper op t vs) as -> by (destruct Hp as [-> | ->]; reflexivity).
      destruct (oper op t vs) as [a|] eqn:EP; [right|left; split; eauto]. eexists. split; [reflexivity|].
      split; [split; [reflexivity|]; intros r Hr'; cbn; unfold upd; destruct (Nat.eqb_spec r (nreg σ)); [lia|reflexivity]|]. split; [reflexivity|].
      exists vs, a. cbn. unfold upd. rewrite Nat.eqb_refl. auto. }
  destruct b.
  - apply (G (POp op t) res); [now left| |clear -H; congruence]. unfold Codegen_Spec.result_type.
    replace (vty_eqb t TVoid) with false by (symmetry; now apply vty_eqb_neq). rewrite <- Hb. rewrite Hres by auto. reflexivity.
  - destruct (op_fun op t) as [rty|] eqn:EF; [|discriminate]. apply (G (PFun op t) rty); [now right| |clear -H; congruence].
    unfold Codegen_Spec.result_type. replace (vty_eqb t TVoid) with false by (symmetry; now apply vty_eqb_neq). rewrite <- Hb. exact EF.
Qed.

(** Conversions, then loads, then the operation. *)
Lemma op_tail op t vs vs' ids' xs σ σ1 os σ2 b res id σ3 :
  objs_ok σ1 -> pext xs σ σ1 -> Forall (castable t) vs ->
  Forall2 (fun id v => nth_error (objs σ1) id = Some v) ids' vs' ->
  runs (nreg σ) xs (fun s => Exists (fun v => cv s v t = UB) vs) (fun s s' => Forall2 (fun v v' => den s' v' = cv s v t) vs vs') ->
  load_list ids' σ1 = Ret (os, σ2) ->
  common (map v_ty vs) = Some t -> t <> TVoid ->
  b = core llvm19 op t -> (b = true -> res = if comparison op then TBit else t) ->
  put_op op_fun b op t res os σ2 = Ret (id, σ3) ->
  produces σ σ3 id (fun s => do! xs <- sq s vs; apply_op op xs) True.
Proof.
  intros Ok1 X HC HI RC HL Hcom Ht Hb Hres HP.
  destruct (load_list_sem _ _ _ _ _ Ok1 HI HL) as (ys & Y & Ok2 & _ & Hos & RL).
  destruct (put_op_sem _ _ _ _ _ _ _ _ Ok2 Hos Ht Hb Hres HP) as (i & rty & HR & Z & Ok3 & Hv & RP).
  exists (xs ++ ys ++ [i]), (Val rty (LVal (OReg (nreg σ2)))). split; [eapply pext_trans; [eassumption|]; eapply pext_trans; eauto|]. split; [assumption|]. split; [assumption|].
  apply (runs_computed _ _ _ _ (OReg (nreg σ2))); [reflexivity|].
  pose proof (x_nreg _ _ _ X). pose proof (x_nreg _ _ _ Y).
  assert (forall s, (exists v, In v vs /\ cv s v t = UB) -> (do! xs <- sq s vs; convert_all xs t) = UB) as HU.
  { clear -HC. intros s (v & Hv & E). induction vs as [|u vs IH]; [destruct Hv|]. inversion HC as [|? ? HC1 HC2]; subst. cbn [sq].
    destruct (den_cases s u) as [Eu|(a & Eu)]; rewrite Eu; cbn [obind]; [reflexivity|].
    destruct Hv as [<-|Hv].
    - unfold cv in E. rewrite Eu in E. cbn [obind] in E. destruct (sq_cases s vs) as [Es|(ys & Es & _)]; rewrite Es; cbn [obind]; [reflexivity|]. cbn [Codegen_Spec.convert_all]. rewrite E. reflexivity.
    - specialize (IH HC2 Hv). destruct (sq_cases s vs) as [Es|(ys & Es & _)]; rewrite Es in *; cbn [obind] in *; [reflexivity|]. cbn [Codegen_Spec.convert_all]. rewrite IH.
      destruct (cv_cases s u t) as [EU|(b & EU)]; auto; unfold cv in EU; rewrite Eu in EU; cbn [obind] in EU; rewrite EU; reflexivity. }
  assert (forall s, (do! xs <- sq s vs; convert_all xs t) = UB -> (do! xs <- sq s vs; apply_op op xs) = UB) as HU2.
  { intros s E. destruct (sq_cases s vs) as [Es|(zs & Es & Hm)]; rewrite Es in *; cbn [obind] in *; [reflexivity|].
    unfold Codegen_Spec.apply_op. rewrite Hm, Hcom. cbn [typed obind]. rewrite HR. cbn [typed obind]. rewrite E. reflexivity. }
  eapply runs_seq with (m := nreg σ1) (b2 := fun s => Exists (fun v => den s v = UB) vs' \/ exists s', Forall2 (fun v o => opval s' o = den s v) vs' os /\ (opvals s' os = UB \/ exists ws, opvals s' os = Ret ws /\ oper op t ws = None))
    (g2 := fun s s' => exists ws a s1, Forall2 (fun v o => opval s1 o = den s v) vs' os /\ opvals s1 os = Ret ws /\ oper op t ws = Some a /\ regs s' (nreg σ2) = Some a); [assumption|exact RC| | | |].
  - eapply runs_seq with (m := nreg σ2); [assumption|exact RL|exact RP|auto| |].
    + intros s s1 K _ G B. right. exists s1. auto.
    + intros s s1 s2 K Kb G (ws & a & B1 & B2 & B3). exists ws, a, s1. auto.
  - intros s B. apply HU2, HU. apply Exists_exists in B. exact B.
  - intros s s1 K Wd G B.
    assert (forall s', Forall2 (fun v o => opval s' o = den s1 v) vs' os -> Forall2 (fun v o => opval s' o = cv s v t) vs os) as Hc.
    { clear -G. intros s' HF. revert os HF. induction G; intros os HF; inversion HF; subst; constructor; [congruence|auto]. }
    destruct B as [B|(s' & HF & B)].
    + apply HU2, HU. apply Exists_exists in B as (v' & Hin & E). clear -G Hin E. induction G; [destruct Hin|]. destruct Hin as [<-|Hin].
      * exists x. split; [now left|congruence]. * destruct IHG as (v & Hv & Ev); auto. exists v. split; [now right|assumption].
    + apply Hc in HF. pose proof (opvals_cv _ _ _ _ _ HC HF) as EO. destruct B as [B|(ws & B1 & B2)].
      * apply HU2. congruence.
      * rewrite B1 in EO. destruct (sq_cases s vs) as [Es|(zs & Es & Hm)]; rewrite Es in *; cbn [obind] in *; [reflexivity|].
        unfold Codegen_Spec.apply_op. rewrite Hm, Hcom. cbn [typed obind]. rewrite HR. cbn [typed obind]. rewrite <- EO. cbn [obind]. rewrite B2. reflexivity.
  - intros s s1 s2 K Kb G (ws & a & s' & HF & B1 & B2 & B3).
    assert (Forall2 (fun v o => opval s' o = cv s v t) vs os) as Hc.
    { clear -G HF. revert os HF. induction G; intros os HF; inversion HF; subst; constructor; [congruence|auto]. }
    pose proof (opvals_cv _ _ _ _ _ HC Hc) as EO. rewrite B1 in EO. unfold den. cbn [v_loc v_ty Ir_Model.opval]. rewrite B3. cbn [obind]. split; [|now exists a].
    destruct (sq_cases s vs) as [Es|(zs & Es & Hm)]; rewrite Es in *; cbn [obind] in *; [discriminate|].
    unfold Codegen_Spec.apply_op. rewrite Hm, Hcom. cbn [typed obind]. rewrite HR. cbn [typed obind]. rewrite <- EO. cbn [obind]. rewrite B2. reflexivity.
Qed.

Lemma unary_sem op id σ id' σ' v : objs_ok σ -> nth_error (objs σ) id = Some v -> operand_count op = Some 1 ->
  unary_op_ir llvm19 op_fun op id σ = Ret (id', σ') -> produces σ σ' id' (fun s => do! xs <- sq s [v]; apply_op op xs) True.
Proof.
  intros Hok Hv Ho H. unfold unary_op_ir, obj in H. rewrite Hv in H. cbn [obind] in H. destruct (vty_eqb (v_ty v) TVoid) eqn:E; [discriminate|].
  destruct (load_value id σ) as [[o σ1]| | |] eqn:EL; try discriminate. cbn [obind] in H.
  eapply (op_tail op (v_ty v) [v] [v] [id] [] σ σ [o] σ1 (un_builtin llvm19 op (v_ty v)) (v_ty v)); eauto.
  - apply pext_refl.
  - repeat constructor.
  - intros s. right. exists s. split; [reflexivity|]. split; [apply keeps_refl|]. split; [reflexivity|]. repeat constructor. unfold cv, Codegen_Spec.convert. rewrite vty_eqb_refl. destruct (den s v); reflexivity.
  - cbn [load_list]. rewrite EL. reflexivity.
  - apply vty_eqb_neq, E.
  - symmetry. now apply core_un.
  - intros _. rewrite compare_table. destruct op; try discriminate Ho; reflexivity.
Qed.

Lemma load_list2 a b σ oa ob σ1 σ2 : load_value a σ = Ret (oa, σ1) -> load_value b σ1 = Ret (ob, σ2) -> load_list [a; b] σ = Ret ([oa; ob], σ2).
Proof. intros A B. cbn [load_list]. rewrite A. cbn [obind]. rewrite B. reflexivity. Qed.
Lemma cast_list2 t a b σ a' b' σ1 σ2 : cast_to a t σ = Ret (a', σ1) -> cast_to b t σ1 = Ret (b', σ2) -> cast_list [a; b] t σ = Ret ([a'; b'], σ2).
Proof. intros A B. cbn [cast_list]. rewrite A. cbn [obind]. rewrite B. reflexivity. Qed.
Lemma cast_same id t σ v : nth_error (objs σ) id = Some v -> v_ty v = t -> cast_to id t σ = Ret (id, σ).
Proof. intros H <-. unfold cast_to, obj. rewrite H. cbn [obind]. rewrite vty_eqb_refl. reflexivity. Qed.
Lemma cast_void id t σ v r : nth_error (objs σ) id = Some v -> v_ty v = TVoid -> cast_to id t σ = Ret r -> t = TVoid.
Proof.
  intros H E. unfold cast_to, obj. rewrite H. cbn [obind]. rewrite E. destruct (vty_eqb TVoid t) eqn:Et. { apply vty_eqb_eq in Et. auto. }
  cbn [can_cast negb]. destruct t; try discriminate.
Qed.

(** The choice of the common type of two operands *)
Lemma pick2 vl vr l r σ t l' r' σ1 :
  nth_error (objs σ) l = Some vl -> nth_error (objs σ) r = Some vr ->
  (if vty_eqb (v_ty vl) (v_ty vr) then Ret (v_ty vl, l, r, σ)
   else do! t <- normalize [v_ty vl; v_ty vr];
        do! (l, σ) <- cast_to l t σ; do! (r, σ) <- cast_to r t σ; Ret (t, l, r, σ)) = Ret (t, l', r', σ1) ->
  t <> TVoid -> cast_list [l; r] t σ = Ret ([l'; r'], σ1) /\ common [v_ty vl; v_ty vr] = Some t.
Proof.
  intros Hl Hr H Ht. unfold common. destruct (vty_eqb (v_ty vl) (v_ty vr)) eqn:E.
  - injection H as <- <- <- <-. apply vty_eqb_eq in E. split; [|reflexivity]. eapply cast_list2; eapply cast_same; eauto.
  - destruct (normalize _) as [t'| | |] eqn:EN; try discriminate. cbn [obind] in H.
    destruct (cast_to l t' σ) as [[l2 σ2]| | |] eqn:E1; try discriminate. cbn [obind] in H.
    destruct (cast_to r t' σ2) as [[r2 σ3]| | |] eqn:E2; try discriminate. injection H as -> -> -> ->.
    split; [eapply cast_list2; eauto|].
    assert (v_ty vl <> TVoid) as N1. { intros N. now apply Ht, (cast_void _ _ _ _ _ Hl N E1). }
    assert (v_ty vr <> TVoid) as N2.
    { intros N. apply Ht. assert (nth_error (objs σ2) r = Some vr) as Hr2.
      { clear -E1 Hr. unfold cast_to, obj in E1. destruct (nth_error (objs σ) l) as [v|] eqn:Ev; [|discriminate]. cbn [obind] in E1. destruct (vty_eqb (v_ty v) t). { injection E1 as <- <-. assumption. }
        destruct (negb (can_cast (v_ty v) (Some t))); [discriminate|]. destruct t; try discriminate. destruct (vty_eqb (v_ty v) TVoid); [discriminate|].
        unfold load_value, obj in E1. rewrite Ev in E1. cbn [obind] in E1. destruct (v_loc v); try discriminate; cbn in E1; injection E1 as <- <-; rewrite !put_emit; cbn; rewrite nth_error_app1; auto; eapply nth_error_lt; eauto. }
      exact (cast_void _ _ _ _ _ Hr2 N E2). }
    destruct (normalize_nums [v_ty vl; v_ty vr] t) as (ns & _ & Hw); auto. discriminate.
Qed.

Lemma binary_sem op l r σ id σ' vl vr : objs_ok σ -> nth_error (objs σ) l = Some vl -> nth_error (objs σ) r = Some vr ->
  operand_count op = Some 2 -> plain_op op = (op, false) -> op <> OP_ASSIGN ->
  binary_op_ir op_fun op l r σ = Ret (id, σ') -> produces σ σ' id (fun s => do! xs <- sq s [vl; vr]; apply_op op xs) True.
Proof.
  intros Hok Hl Hr Ho Hp Hna H. unfold binary_op_ir in H. rewrite Hp in H.
  replace (optok_eqb op OP_ASSIGN) with false in H by (symmetry; destruct (optok_eqb op OP_ASSIGN) eqn:E; auto; apply optok_eqb_eq in E; contradiction).
  unfold obj in H. rewrite Hl, Hr in H. cbn [obind] in H.
  match type of H with obind ?e _ = _ => destruct e as [[[[t l'] r'] σ1]| | |] eqn:EP; try discriminate end. cbn [obind] in H.
  destruct (vty_eqb t TVoid) eqn:Et; [discriminate|]. apply vty_eqb_neq in Et.
  destruct (pick2 _ _ _ _ _ _ _ _ _ Hl Hr EP Et) as [EC Hcom].
  destruct (load_value l' σ1) as [[lo σ2]| | |] eqn:L1; try discriminate. cbn [obind] in H.
  destruct (load_value r' σ2) as [[ro σ3]| | |] eqn:L2; try discriminate. cbn [obind] in H.
  destruct (put_op _ _ _ _ _ _ _) as [[res σ4]| | |] eqn:P; try discriminate. cbn [obind] in H. injection H as <- <-.
  destruct (cast_list_sem t [l; r] σ [l'; r'] σ1 [vl; vr]) as (xs & vs' & X & O1 & HI & HC & _ & RC); auto.
  eapply (op_tail op t [vl; vr] vs' [l'; r'] xs σ σ1 [lo; ro] σ3 (bin_builtin op t) (if is_compare_op op then TBit else t)); eauto using load_list2.
  - symmetry. now apply core_bin.
  - intros _. now rewrite compare_table.
Qed.

Lemma load_list3 a b c σ oa ob oc σ1 σ2 σ3 : load_value a σ = Ret (oa, σ1) -> load_value b σ1 = Ret (ob, σ2) -> load_value c σ2 = Ret (oc, σ3) ->
  load_list [a; b; c] σ = Ret ([oa; ob; oc], σ3).
Proof. intros A B C. cbn [load_list]. rewrite A. cbn [obind]. rewrite B. cbn [obind]. rewrite C. reflexivity. Qed.

(** c ? a : b *)
Lemma cond_sem a b c σ id σ' va vb vc : objs_ok σ ->
  nth_error (objs σ) a = Some va -> nth_error (objs σ) b = Some vb -> nth_error (objs σ) c = Some vc ->
  ternary_op_ir op_fun OP_CONDITIONAL a b c σ = Ret (id, σ') ->
  produces σ σ' id (fun s => do! xs <- sq s [va; vb; vc]; match xs with [x; y; z] => apply_cond x y z | _ => Err end) True.
Proof.
  intros Hok Ha Hb Hc H. unfold ternary_op_ir, obj in H. rewrite Ha, Hb, Hc in H. cbn [obind] in H. replace (optok_eqb OP_CONDITIONAL OP_CONDITIONAL) with true in H by reflexivity.
  destruct (vty_eqb (v_ty va) TBit) eqn:EB; cbn [negb obind] in H; [|discriminate].
  assert (exists t b' c' σ1, (if vty_eqb (v_ty vb) (v_ty vc) then Ret (v_ty vb, b, c, σ)
     else do! t <- normalize [v_ty vb; v_ty vc]; do! (b, σ) <- cast_to b t σ; do! (c, σ) <- cast_to c t σ; Ret (t, b, c, σ)) = Ret (t, b', c', σ1) /\
    (if vty_eqb t TVoid then UB
     else do! (ao, σ) <- load_value a σ1; do! (bo, σ) <- load_value b' σ; do! (co, σ) <- load_value c' σ; put_op op_fun (tern_builtin OP_CONDITIONAL t) OP_CONDITIONAL t t [ao; bo; co] σ) = Ret (id, σ')) as (t & b' & c' & σ1 & EP & E).
  { clear -H. destruct (vty_eqb (v_ty vb) (v_ty vc)); [cbn [obind] in H; eauto 8|]. destruct (normalize _) as [t| | |]; try discriminate. cbn [obind] in *.
    destruct (cast_to b t σ) as [[b' σ1]| | |]; try discriminate. cbn [obind] in *. destruct (cast_to c t σ1) as [[c' σ2]| | |]; try discriminate. cbn [obind] in *. eauto 8. }
  clear H. destruct (vty_eqb t TVoid) eqn:Et; [discriminate|]. apply vty_eqb_neq in Et. apply vty_eqb_eq in EB.
  destruct (pick2 _ _ _ _ _ _ _ _ _ Hb Hc EP Et) as [EC Hcom].
  destruct (load_value a σ1) as [[ao σ2]| | |] eqn:L1; try discriminate. cbn [obind] in E.
  destruct (load_value b' σ2) as [[bo σ3]| | |] eqn:L2; try discriminate. cbn [obind] in E.
  destruct (load_value c' σ3) as [[co σ4]| | |] eqn:L3; try discriminate. cbn [obind] in E.
  destruct (cast_list_sem t [b; c] σ [b'; c'] σ1 [vb; vc]) as (xs & vs' & X & O1 & HI & HC & _ & RC); auto.
  inversion HI as [|? vb' ? l1 Hb' HI1]; subst. inversion HI1 as [|? vc' ? l2 Hc' HI2]; subst. inversion HI2; subst. clear HI1 HI2.
  destruct (load_list_sem [a; b'; c'] σ1 [ao; bo; co] σ4 [va; vb'; vc']) as (ys & Y & O4 & _ & Hos & RL); eauto using load_list3.
  { repeat constructor; auto. eapply pext_nth; eauto. }
  destruct (put_op_sem (tern_builtin OP_CONDITIONAL t) OP_CONDITIONAL t t [ao; bo; co] σ4 id σ') as (i & rty & HR & Z & O5 & Hv & RP); auto.
  pose proof (x_nreg _ _ _ X). pose proof (x_nreg _ _ _ Y). pose proof (objs_nth _ _ _ Hok Ha) as Va.
  exists (xs ++ ys ++ [i]), (Val rty (LVal (OReg (nreg σ4)))). split; [eapply pext_trans; [eassumption|]; eapply pext_trans; eauto|]. split; [assumption|]. split; [assumption|].
  inversion HC as [|? ? Cb HC1]; subst. inversion HC1 as [|? ? Cc _]; subst.
  set (d := fun s => do! xs <- sq s [va; vb; vc]; match xs with [x; y; z] => apply_cond x y z | _ => Err end).
  assert (forall s, d s = do! x <- den s va; do! y <- cv s vb t; do! z <- cv s vc t; do! r <- defined (oper OP_CONDITIONAL t [x; y; z]); Ret (rty, r)) as Hd.
  { intros s. unfold d. cbn [sq]. destruct (den_cases s va) as [E1|(x & E1)]; rewrite E1; cbn [obind]; [reflexivity|].
    unfold cv. destruct (den_cases s vb) as [E2|(y & E2)]; rewrite E2; cbn [obind]; [reflexivity|].
    destruct (den_cases s vc) as [E3|(z & E3)]; rewrite E3; cbn [obind].
    - destruct (cv_cases s vb t Cb) as [E4|(y' & E4)]; unfold cv in E4; rewrite E2 in E4; cbn [obind] in E4; rewrite E4; reflexivity.
    - unfold Codegen_Spec.apply_cond. cbn [fst snd]. rewrite EB, vty_eqb_refl. cbn [negb]. rewrite Hcom. cbn [typed obind]. rewrite HR. cbn [typed obind Codegen_Spec.convert_all].
      destruct (convert (v_ty vb, y) t); [|reflexivity|reflexivity|reflexivity]. cbn [obind]. destruct (convert (v_ty vc, z) t); reflexivity. }
  apply (runs_computed _ _ d (Val rty (LVal (OReg (nreg σ4)))) (OReg (nreg σ4))); [reflexivity|].
  eapply runs_seq with (m := nreg σ1) (b2 := fun s => (do! x <- den s va; do! y <- den s vb'; do! z <- den s vc'; do! r <- defined (oper OP_CONDITIONAL t [x; y; z]); Ret (rty, r)) = UB)
    (g2 := fun s s' => exists r, (do! x <- den s va; do! y <- den s vb'; do! z <- den s vc'; do! r <- defined (oper OP_CONDITIONAL t [x; y; z]); Ret (rty, r)) = Ret (rty, r) /\ regs s' (nreg σ4) = Some r); [assumption|exact RC| | | |].
  - eapply runs_seq with (m := nreg σ4); [assumption|exact RL|exact RP| | |].
    + intros s B. inversion B as [? ? E1|? ? B1]; subst. { rewrite E1. reflexivity. }
      destruct (den_cases s va) as [E0|(x & E0)]; rewrite E0; cbn [obind]; [reflexivity|].
      inversion B1 as [? ? E1|? ? B2]; subst. { rewrite E1. reflexivity. }
      destruct (den_cases s vb') as [E1|(y & E1)]; rewrite E1; cbn [obind]; [reflexivity|].
      inversion B2 as [? ? E2|? ? B3]; subst. { rewrite E2. reflexivity. } inversion B3.
    + intros s s1 K _ G B. inversion G as [|? ? ? ? G1 G']; subst. inversion G' as [|? ? ? ? G2 G'']; subst. inversion G'' as [|? ? ? ? G3 _]; subst.
      cbn [Ir_Model.opvals] in B. rewrite G1, G2, G3 in B.
      destruct (den_cases s va) as [E1|(x & E1)]; rewrite E1 in *; cbn [obind] in *; [reflexivity|].
      destruct (den_cases s vb') as [E2|(y & E2)]; rewrite E2 in *; cbn [obind] in *; [reflexivity|].
      destruct (den_cases s vc') as [E3|(z & E3)]; rewrite E3 in *; cbn [obind] in *; [reflexivity|].
      destruct B as [B|(ws & B1 & B2)]; [discriminate|]. injection B1 as <-. rewrite B2. reflexivity.
    + intros s s1 s2 K Kb G (ws & r & B1 & B2 & B3). inversion G as [|? ? ? ? G1 G']; subst. inversion G' as [|? ? ? ? G2 G'']; subst. inversion G'' as [|? ? ? ? G3 _]; subst.
      cbn [Ir_Model.opvals] in B1. rewrite G1, G2, G3 in B1. exists r.
      destruct (den_cases s va) as [E1|(x & E1)]; rewrite E1 in *; cbn [obind] in *; [discriminate|].
      destruct (den_cases s vb') as [E2|(y & E2)]; rewrite E2 in *; cbn [obind] in *; [discriminate|].
      destruct (den_cases s vc') as [E3|(z & E3)]; rewrite E3 in *; cbn [obind] in *; [discriminate|].
      injection B1 as <-. rewrite B2. split; [reflexivity|assumption].
  - intros s B. rewrite Hd. inversion B as [? ? E1|? ? B1]; subst.
    { rewrite E1. destruct (den_cases s va) as [E0|(x & E0)]; rewrite E0; reflexivity. }
    inversion B1 as [? ? E1|? ? B2]; subst; [|inversion B2]. rewrite E1. destruct (den_cases s va) as [E0|(x & E0)]; rewrite E0; cbn [obind]; [reflexivity|].
    destruct (cv_cases s vb t Cb) as [E2|(y & E2)]; rewrite E2; reflexivity.
  - intros s s1 K _ G B. rewrite Hd. inversion G as [|? ? ? ? G1 G']; subst. inversion G' as [|? ? ? ? G2 _]; subst. rewrite <- G1, <- G2, <- (den_keeps _ _ _ _ K Va). exact B.
  - intros s s1 s2 K Kb G (r & B1 & B2). rewrite Hd. inversion G as [|? ? ? ? G1 G']; subst. inversion G' as [|? ? ? ? G2 _]; subst. rewrite <- G1, <- G2, <- (den_keeps _ _ _ _ K Va). rewrite B1.
    unfold den. cbn [v_loc v_ty Ir_Model.opval]. rewrite B2. split; [reflexivity|]. now exists r.
Qed.

Lemma cast_list3 t a b c σ a' b' c' σ1 σ2 σ3 : cast_to a t σ = Ret (a', σ1) -> cast_to b t σ1 = Ret (b', σ2) -> cast_to c t σ2 = Ret (c', σ3) ->
  cast_list [a; b; c] t σ = Ret ([a'; b'; c'], σ3).
Proof. intros A B C. cbn [cast_list]. rewrite A. cbn [obind]. rewrite B. cbn [obind]. rewrite C. reflexivity. Qed.

Lemma ternary_sem op a b c σ id σ' va vb vc : objs_ok σ ->
  nth_error (objs σ) a = Some va -> nth_error (objs σ) b = Some vb -> nth_error (objs σ) c = Some vc ->
  operand_count op = Some 3 -> op <> OP_CONDITIONAL ->
  ternary_op_ir op_fun op a b c σ = Ret (id, σ') -> produces σ σ' id (fun s => do! xs <- sq s [va; vb; vc]; apply_op op xs) True.
Proof.
  intros Hok Ha Hb Hc Ho Hop H. unfold ternary_op_ir, obj in H. rewrite Ha, Hb, Hc in H. cbn [obind] in H.
  replace (optok_eqb op OP_CONDITIONAL) with false in H by (symmetry; destruct (optok_eqb op OP_CONDITIONAL) eqn:E; auto; apply optok_eqb_eq in E; contradiction).
  destruct (normalize _) as [t| | |] eqn:EN; try discriminate. cbn [obind] in H.
  destruct (cast_to b t σ) as [[b' σ1]| | |] eqn:E1; try discriminate. cbn [obind] in H.
  destruct (cast_to c t σ1) as [[c' σ2]| | |] eqn:E2; try discriminate. cbn [obind] in H.
  destruct (cast_to a t σ2) as [[a' σ3]| | |] eqn:E3; try discriminate. cbn [obind] in H.
  destruct (vty_eqb t TVoid) eqn:Et; [discriminate|]. apply vty_eqb_neq in Et.
  destruct (load_value a' σ3) as [[ao σ4]| | |] eqn:L1; try discriminate. cbn [obind] in H.
  destruct (load_value b' σ4) as [[bo σ5]| | |] eqn:L2; try discriminate. cbn [obind] in H.
  destruct (load_value c' σ5) as [[co σ6]| | |] eqn:L3; try discriminate. cbn [obind] in H.
  destruct (cast_list_sem t [b; c; a] σ [b'; c'; a'] σ3 [vb; vc; va]) as (xs & vs' & X & O1 & HI & HC & _ & RC); eauto using cast_list3.
  inversion HI as [|? vb' ? l1 Hb' HI1]; subst. inversion HI1 as [|? vc' ? l2 Hc' HI2]; subst. inversion HI2 as [|? va' ? l3 Ha' HI3]; subst. inversion HI3; subst. clear HI1 HI2 HI3.
  inversion HC as [|? ? Cb HC1]; subst. inversion HC1 as [|? ? Cc HC2]; subst. inversion HC2 as [|? ? Ca _]; subst.
  assert (exists n, t = TNum n) as (nt & ->).
  { destruct Cb as [Cb|(n & m & _ & ->)]; [|eauto]. destruct t as [| |m]; [congruence| |eauto]. exfalso.
    unfold normalize in EN. destruct (forallb _ _); [|discriminate]. destruct (max_num _ _); discriminate. }
  assert (forall v, castable (TNum nt) v -> v_ty v <> TVoid) as NV by (intros v [Q|(n & m & Q & _)]; rewrite Q; discriminate).
  destruct (normalize_nums [v_ty va; v_ty vb; v_ty vc] (TNum nt)) as (ns & _ & Hw); auto. { discriminate. }
  eapply (op_tail op (TNum nt) [va; vb; vc] [va'; vb'; vc'] [a'; b'; c'] xs σ σ3 [ao; bo; co] σ6 (tern_builtin op (TNum nt)) (TNum nt)); eauto using load_list3.
  - intros s. destruct (RC s) as [[E B]|(s' & E & K & Wd & G)]; [left|right].
    + split; [assumption|]. inversion B as [? ? B1|? ? B1]; subst. { apply Exists_cons_tl. now apply Exists_cons_hd. }
      inversion B1 as [? ? B2|? ? B2]; subst. { apply Exists_cons_tl, Exists_cons_tl. now apply Exists_cons_hd. }
      inversion B2 as [? ? B3|? ? B3]; subst; [now apply Exists_cons_hd|inversion B3].
    + exists s'. repeat (split; [assumption|]). inversion G as [|? ? ? ? G1 G']; subst. inversion G' as [|? ? ? ? G2 G'']; subst. inversion G'' as [|? ? ? ? G3 _]; subst. repeat constructor; assumption.
  - symmetry. now apply core_tern.
  - intros _. rewrite compare_table. destruct op; try discriminate Ho; reflexivity.
Qed.

(** *** Calls *)
Fixpoint cvs (s : rt) (vs : list value) (ts : list vty) : outcome (list V) :=
  match vs, ts with
  | [], [] => Ret []
  | v :: vs', t :: ts' => do! a <- cv s v t; do! l <- cvs s vs' ts'; Ret (a :: l)
  | _, _ => Err
  end.
Lemma cvs_cases s vs ts : Forall2 (fun v t => castable t v) vs ts -> cvs s vs ts = UB \/ exists l, cvs s vs ts = Ret l.
Proof.
  induction 1 as [|v t vs ts Hc _ IH]; [right; now exists []|]. cbn [cvs]. destruct (cv_cases s v t Hc) as [E|(a & E)]; rewrite E; cbn [obind]; [auto|].
  destruct IH as [E2|(l & E2)]; rewrite E2; cbn [obind]; eauto.
Qed.
Lemma cvs_convert s vs ts : Forall2 (fun v t => castable t v) vs ts ->
  (do! xs <- sq s vs; convert_each conv xs ts) = cvs s vs ts.
Proof.
  induction 1 as [|v t vs ts Hc HF IH]; [reflexivity|]. cbn [cvs sq]. rewrite <- IH. unfold cv.
  destruct (den_cases s v) as [E|(a & E)]; rewrite E; cbn [obind]; [reflexivity|].
  destruct (sq_cases s vs) as [Es|(xs & Es & _)]; rewrite Es; cbn [obind Codegen_Spec.convert_each]; [|reflexivity].
  destruct (cv_cases s v t Hc) as [E2|(b & E2)]; unfold cv in E2; rewrite E in E2; cbn [obind] in E2; rewrite E2; reflexivity.
Qed.
Lemma cvs_keeps n a b vs ts : keeps n a b -> Forall (vok n) vs -> cvs b vs ts = cvs a vs ts.
Proof.
  intros K H. revert ts. induction H as [|v vs Hv _ IH]; intros ts; [reflexivity|]. destruct ts as [|t ts]; [reflexivity|]. cbn [cvs]. rewrite (cv_keeps _ _ _ _ _ K Hv), IH. reflexivity.
Qed.
Lemma call_args_sem ids : forall ts σ os σ' vs, objs_ok σ -> Forall2 (fun id v => nth_error (objs σ) id = Some v) ids vs ->
  call_args ids ts σ = Ret (os, σ') ->
  exists xs, pext xs σ σ' /\ objs_ok σ' /\ Forall (opok (nreg σ')) os /\ Forall2 (fun v t => castable t v) vs ts /\
    runs (nreg σ) xs (fun s => cvs s vs ts = UB) (fun s s' => opvals s' os = cvs s vs ts).
Proof.
  induction ids as [|id ids IH]; intros ts σ os σ' vs Hok HF H; inversion HF; subst; destruct ts as [|t ts]; cbn [call_args] in H; try discriminate.
  - injection H as <- <-. exists []. split; [apply pext_refl|]. split; [assumption|]. split; [constructor|]. split; [constructor|].
    intros s. right. exists s. repeat split.
  - destruct (cast_to id t σ) as [[i σ1]| | |] eqn:E; try discriminate. cbn [obind] in H.
    destruct (load_value i σ1) as [[o σ2]| | |] eqn:EL; try discriminate. cbn [obind] in H.
    destruct (call_args ids ts σ2) as [[os1 σ3]| | |] eqn:E2; try discriminate. injection H as <- <-.
    rename y into v. match goal with H : nth_error _ id = Some v |- _ => rename H into Hv end. match goal with H : Forall2 _ ids l' |- _ => rename H into HF2 end.
    destruct (cast_sem _ _ _ _ _ _ Hok Hv E) as (xs & v' & X & O1 & Q1 & T1 & C1 & R1).
    destruct (load_sem _ _ _ _ _ O1 Q1 EL) as (ys & Y & O2 & Q2 & K2 & R2).
    assert (pext (xs ++ ys) σ σ2) as XY by (eapply pext_trans; eauto).
    destruct (IH ts σ2 os1 σ3 l') as (zs & Z & O3 & K3 & C3 & R3); auto.
    { clear -HF2 XY. induction HF2; constructor; eauto using pext_nth. }
    exists ((xs ++ ys) ++ zs). split; [eapply pext_trans; eauto|]. split; [assumption|].
    pose proof (x_nreg _ _ _ X). pose proof (x_nreg _ _ _ Y). pose proof (x_nreg _ _ _ Z).
    split; [constructor; auto; eapply opok_mono; eauto|]. split; [constructor; auto|].
    assert (Forall (vok (nreg σ)) l') as Hvok.
    { clear -HF2 Hok. induction HF2; constructor; auto. eapply objs_nth; eauto. }
    eapply runs_seq with (m := nreg σ2) (b1 := fun s => cv s v t = UB) (g1 := fun s s' => opval s' o = cv s v t); [lia| |exact R3| | |]; cbn beta.
    + eapply runs_seq with (m := nreg σ1); [assumption|exact R1|exact R2|auto| |].
      * intros s s1 K _ G B. congruence.
      * intros s s1 s2 K Kb G1 G2. congruence.
    + intros s B. cbn [cvs]. rewrite B. reflexivity.
    + intros s s1 K _ G B. cbn [cvs]. rewrite (cvs_keeps _ _ _ _ _ K Hvok) in B. rewrite B. destruct (cv_cases s v t C1) as [EU|(a & EU)]; rewrite EU; reflexivity.
    + intros s s1 s2 K Kb G1 G2. cbn [cvs Ir_Model.opvals]. rewrite (opval_keeps _ _ _ _ Kb K2), G1, G2, (cvs_keeps _ _ _ _ _ K Hvok). reflexivity.
Qed.

Lemma call_sem f ids σ id σ' vs : objs_ok σ -> Forall2 (fun id v => nth_error (objs σ) id = Some v) ids vs ->
  call_function fsig f ids σ = Ret (id, σ') ->
  exists ts xs v, fsig f = Some (ts, v_ty v) /\ pext xs σ σ' /\ objs_ok σ' /\ nth_error (objs σ') id = Some v /\
    Forall2 (fun v t => castable t v) vs ts /\ (exists o, v_loc v = LVal o) /\
    forall s, (execi xs s = UB /\ cvs s vs ts = UB) \/
      (exists s' ws, execi xs s = Ret s' /\ keeps (nreg σ) s s' /\ cvs s vs ts = Ret ws /\ ext f (world s) ws = (world s', match den s' v with Ret a => a | _ => snd (ext f (world s) ws) end) /\ exists a, den s' v = Ret a).
Proof.
  intros Hok HF H. unfold call_function in H. destruct (fsig f) as [[ts rty]|] eqn:EF; [|discriminate].
  destruct (call_args ids ts σ) as [[os σ1]| | |] eqn:E; try discriminate. cbn [obind new_reg] in H. unfold new_value in H. injection H as <- <-.
  destruct (call_args_sem _ _ _ _ _ _ Hok HF E) as (xs & X & O1 & K1 & C1 & R1).
  exists ts, (xs ++ [ICall (nreg σ1) f os]), (Val rty (LVal (OReg (nreg σ1)))). split; [reflexivity|]. rewrite put_emit.
  split. { eapply pext_trans; [exact X|]. constructor; cbn; auto; eauto. }
  split. { unfold objs_ok in *. cbn. apply Forall_app. split; [|repeat constructor; cbn; lia]. eapply Forall_impl; [|exact O1]. intros a. apply vok_mono. lia. }
  split. { cbn. rewrite nth_error_app2 by lia. rewrite Nat.sub_diag. reflexivity. }
  split; [assumption|]. split; [eexists; reflexivity|]. intros s. rewrite execi_app. destruct (R1 s) as [[E1 B]|(s1 & E1 & Kp & Wd & G)]; rewrite E1; cbn [obind]; [left; auto|].
  cbn [execi Ir_Model.exec_inst]. rewrite G. destruct (cvs_cases s vs ts C1) as [EC|(ws & EC)]; rewrite EC; cbn [obind]; [left; auto|right].
  unfold total. cbn [obind]. destruct (ext f (world s1) ws) as [w a] eqn:EX. exists (Rt (upd (regs s1) (nreg σ1) (Some a)) (slots s1) w), ws. split; [reflexivity|].
  pose proof (x_nreg _ _ _ X). split. { destruct Kp as [Ks Kr]. split; [exact Ks|]. intros r Hr. cbn. unfold upd. destruct (Nat.eqb_spec r (nreg σ1)); [lia|auto]. }
  unfold den. cbn. unfold upd. rewrite Nat.eqb_refl. rewrite <- Wd, EX. split; [reflexivity|]. split; [reflexivity|]. eauto.
Qed.

(** *** The second phase: trees of values *)
Inductive vt : Type := VLeaf (id : nat) | VUn (op : optok) (a : vt) | VBin (op : optok) (a b : vt) | VTern (op : optok) (a b c : vt).
Fixpoint post (t : vt) : list enode :=
  match t with
  | VLeaf id => [E_val id]
  | VUn op a => post a ++ [E_op op]
  | VBin op a b => post a ++ post b ++ [E_op op]
  | VTern op a b c => post a ++ post b ++ post c ++ [E_op op]
  end.
Fixpoint vtok (O : list value) (t : vt) : Prop :=
  match t with
  | VLeaf id => id < length O
  | VUn op a => operand_count op = Some 1 /\ vtok O a
  | VBin op a b => operand_count op = Some 2 /\ plain_op op = (op, false) /\ op <> OP_ASSIGN /\ vtok O a /\ vtok O b
  | VTern op a b c => operand_count op = Some 3 /\ vtok O a /\ vtok O b /\ vtok O c
  end.
Fixpoint vteval (O : list value) (s : rt) (t : vt) : outcome (vty * V) :=
  match t with
  | VLeaf id => match nth_error O id with Some v => do! a <- den s v; Ret (v_ty v, a) | None => UB end
  | VUn op a => do! x <- vteval O s a; apply_op op [x]
  | VBin op a b => do! x <- vteval O s a; do! y <- vteval O s b; apply_op op [x; y]
  | VTern op a b c =>
      do! x <- vteval O s a; do! y <- vteval O s b; do! z <- vteval O s c;
      if optok_eqb op OP_CONDITIONAL then apply_cond x y z else apply_op op [x; y; z]
  end.
Fixpoint second (t : vt) (σ : cg) : outcome (nat * cg) :=
  match t with
  | VLeaf id => Ret (id, σ)
  | VUn op a => do! (x, σ) <- second a σ; unary_op_ir llvm19 op_fun op x σ
  | VBin op a b => do! (x, σ) <- second a σ; do! (y, σ) <- second b σ; binary_op_ir op_fun op x y σ
  | VTern op a b c =>
      do! (x, σ) <- second a σ; do! (y, σ) <- second b σ; do! (z, σ) <- second c σ; ternary_op_ir op_fun op x y z σ
  end.
Lemma eval_nodes_post t O : forall rest stack σ, vtok O t ->
  eval_nodes llvm19 op_fun (post t ++ rest) stack σ = do! (id, σ) <- second t σ; eval_nodes llvm19 op_fun rest (id :: stack) σ.
Proof.
  induction t as [id|op a IHa|op a IHa b IHb|op a IHa b IHb c IHc]; intros rest stack σ Hok; cbn [post second vtok] in *.
  - reflexivity.
  - destruct Hok as [Ho Ha]. rewrite <- app_assoc, IHa by auto. destruct (second a σ) as [[x σ1]| | |]; try reflexivity. cbn [obind app eval_nodes eval_node]. rewrite Ho.
    destruct (unary_op_ir _ _ _ _ _) as [[r σ2]| | |]; reflexivity.
  - destruct Hok as (Ho & Hp & Hn & Ha & Hb). rewrite <- !app_assoc, IHa by auto. destruct (second a σ) as [[x σ1]| | |]; try reflexivity. cbn [obind]. rewrite IHb by auto.
    destruct (second b σ1) as [[y σ2]| | |]; try reflexivity. cbn [obind app eval_nodes eval_node]. rewrite Ho.
    destruct (binary_op_ir _ _ _ _ _) as [[r σ3]| | |]; reflexivity.
  - destruct Hok as (Ho & Ha & Hb & Hc). rewrite <- !app_assoc, IHa by auto. destruct (second a σ) as [[x σ1]| | |]; try reflexivity. cbn [obind]. rewrite IHb by auto.
    destruct (second b σ1) as [[y σ2]| | |]; try reflexivity. cbn [obind]. rewrite IHc by auto. destruct (second c σ2) as [[z σ3]| | |]; try reflexivity.
    cbn [obind app eval_nodes eval_node]. rewrite Ho. destruct (ternary_op_ir _ _ _ _ _ _) as [[r σ4]| | |]; reflexivity.
Qed.
Lemma vteval_keeps n O os a b t : keeps n a b -> Forall (vok n) O -> vtok O t -> vteval (O ++ os) b t = vteval O a t.
Proof.
  intros K HO. induction t as [id|op x IHx|op x IHx y IHy|op x IHx y IHy z IHz]; cbn [vtok vteval]; intros H.
  - rewrite nth_error_app1 by auto. destruct (nth_error O id) as [v|] eqn:E; [|reflexivity]. rewrite (den_keeps _ _ _ _ K); auto.
    rewrite Forall_forall in HO. apply HO. eapply nth_error_In; eauto.
  - destruct H. rewrite IHx by auto. reflexivity.
  - destruct H as (_ & _ & _ & Hx & Hy). rewrite IHx, IHy by auto. reflexivity.
  - destruct H as (_ & Hx & Hy & Hz). rewrite IHx, IHy, IHz by auto. reflexivity.
Qed.
Lemma vtok_app O os t : vtok O t -> vtok (O ++ os) t.
Proof. induction t; cbn [vtok]; rewrite ?app_length; intuition lia. Qed.

Lemma second_sem t : forall σ id σ', objs_ok σ -> vtok (objs σ) t -> second t σ = Ret (id, σ') -> produces σ σ' id (fun s => vteval (objs σ) s t) (match t with VLeaf _ => False | _ => True end).
Proof.
  induction t as [i|op a IHa|op a IHa b IHb|op a IHa b IHb c IHc]; intros σ id σ' Hok Hvt H; cbn [second vtok] in *.
  - injection H as <- <-. destruct (nth_error (objs σ) i) as [v|] eqn:E; [|apply nth_error_None in E; lia].
    exists [], v. split; [apply pext_refl|]. split; [assumption|]. split; [assumption|]. split; [|intros []]. intros s. right. exists s. split; [reflexivity|]. split; [apply keeps_refl|]. split; [reflexivity|].
    cbn [vteval]. rewrite E. reflexivity.
  - destruct Hvt as [Ho Ha]. destruct (second a σ) as [[x σ1]| | |] eqn:Ea; try discriminate. cbn [obind] in H.
    destruct (IHa _ _ _ Hok Ha Ea) as (xs & va & X & O1 & Hv & R1 & _).
    destruct (unary_sem _ _ _ _ _ _ O1 Hv Ho H) as (ys & v & Y & O2 & Hv2 & R2 & C2).
    exists (xs ++ ys), v. split; [eapply pext_trans; eauto|]. split; [assumption|]. split; [assumption|]. split; [|intros _; apply computed_app; auto].
    assert (forall s s1, vteval (objs σ) s a = (do! p <- den s1 va; Ret (v_ty va, p)) -> vteval (objs σ) s (VUn op a) = do! xs <- sq s1 [va]; apply_op op xs) as Hd.
    { intros s s1 G. cbn [vteval sq]. rewrite G. destruct (den s1 va); reflexivity. }
    eapply runs_seq with (m := nreg σ1); [apply X|exact R1|exact R2| | |]; cbn beta.
    + intros s B. cbn [vteval]. rewrite B. reflexivity.
    + intros s s1 K _ G B. rewrite (Hd s s1 G). exact B.
    + intros s s1 s2 K Kb G B. rewrite (Hd s s1 G). exact B.
  - destruct Hvt as (Ho & Hp & Hn & Ha & Hb). destruct (second a σ) as [[x σ1]| | |] eqn:Ea; try discriminate. cbn [obind] in H.
    destruct (second b σ1) as [[y σ2]| | |] eqn:Eb; try discriminate. cbn [obind] in H.
    destruct (IHa _ _ _ Hok Ha Ea) as (xs & va & X & O1 & Hva & R1 & _). destruct (x_objs _ _ _ X) as (os1 & EO).
    destruct (IHb σ1 y σ2 O1) as (ys & vb & Y & O2 & Hvb & R2 & _). { rewrite EO. now apply vtok_app. } { exact Eb. }
    destruct (binary_sem _ _ _ _ _ _ _ _ O2 (pext_nth _ _ _ _ _ Y Hva) Hvb Ho Hp Hn H) as (zs & v & Z & O3 & Hv & R3 & C3).
    exists (xs ++ ys ++ zs), v. split; [eapply pext_trans; [eassumption|]; eapply pext_trans; eauto|]. split; [assumption|]. split; [assumption|]. split; [|intros _; apply computed_app, computed_app; auto].
    pose proof (objs_nth _ _ _ O1 Hva) as Va. pose proof (x_nreg _ _ _ X). pose proof (x_nreg _ _ _ Y).
    assert (forall s s1, keeps (nreg σ) s s1 -> vteval (objs σ1) s1 b = vteval (objs σ) s b) as Hk.
    { intros s s1 K. rewrite EO. eapply vteval_keeps; eauto. }
    eapply runs_seq with (m := nreg σ1)
      (b2 := fun s1 => (do! x <- (do! p <- den s1 va; Ret (v_ty va, p)); do! y <- vteval (objs σ1) s1 b; apply_op op [x; y]) = UB)
      (g2 := fun s1 s3 => (do! x <- (do! p <- den s1 va; Ret (v_ty va, p)); do! y <- vteval (objs σ1) s1 b; apply_op op [x; y]) = do! p <- den s3 v; Ret (v_ty v, p)); [assumption|exact R1| | | |]; cbn beta.
    + eapply runs_seq with (m := nreg σ2); [assumption|exact R2|exact R3| | |]; cbn beta.
      * intros s B. destruct (den_cases s va) as [E|(p & E)]; rewrite E; cbn [obind]; [reflexivity|]. rewrite B. reflexivity.
      * intros s s1 K _ G B. cbn [sq] in B. rewrite (den_keeps _ _ _ _ K Va) in B. destruct (den_cases s va) as [E|(p & E)]; rewrite E in *; cbn [obind] in *; [reflexivity|].
        rewrite G. destruct (den_cases s1 vb) as [E2|(q & E2)]; rewrite E2 in *; cbn [obind] in *; auto.
      * intros s s1 s2 K Kb G B. rewrite <- B. cbn [sq]. rewrite (den_keeps _ _ _ _ K Va). destruct (den s va); try reflexivity. cbn [obind]. rewrite G. destruct (den s1 vb); reflexivity.
    + intros s B. cbn [vteval]. rewrite B. reflexivity.
    + intros s s1 K _ G B. cbn [vteval]. rewrite G. rewrite <- (Hk s s1 K). exact B.
    + intros s s1 s2 K Kb G B. cbn [vteval]. rewrite G. rewrite <- (Hk s s1 K). exact B.
  - destruct Hvt as (Ho & Ha & Hb & Hc). destruct (second a σ) as [[x σ1]| | |] eqn:Ea; try discriminate. cbn [obind] in H.
    destruct (second b σ1) as [[y σ2]| | |] eqn:Eb; try discriminate. cbn [obind] in H.
    destruct (second c σ2) as [[z σ3]| | |] eqn:Ec; try discriminate. cbn [obind] in H.
    destruct (IHa _ _ _ Hok Ha Ea) as (xs & va & X & O1 & Hva & R1 & _). destruct (x_objs _ _ _ X) as (os1 & EO1).
    destruct (IHb σ1 y σ2 O1) as (ys & vb & Y & O2 & Hvb & R2 & _). { rewrite EO1. now apply vtok_app. } { exact Eb. } destruct (x_objs _ _ _ Y) as (os2 & EO2).
    destruct (IHc σ2 z σ3 O2) as (zs & vc & Z & O3 & Hvc & R3 & _). { rewrite EO2, EO1. now apply vtok_app, vtok_app. } { exact Ec. }
    pose proof (pext_nth _ _ _ _ _ Z (pext_nth _ _ _ _ _ Y Hva)) as Hva3. pose proof (pext_nth _ _ _ _ _ Z Hvb) as Hvb3.
    assert (produces σ3 σ' id (fun s => do! xs <- sq s [va; vb; vc]; match xs with [x; y; z] => if optok_eqb op OP_CONDITIONAL then apply_cond x y z else apply_op op [x; y; z] | _ => Err end) True) as (us & v & U & O4 & Hv & R4 & C4).
    { destruct (optok_eqb op OP_CONDITIONAL) eqn:EC.
      - apply optok_eqb_eq in EC. subst op. eapply cond_sem; eauto.
      - assert (op <> OP_CONDITIONAL) as Hne by (intros ->; discriminate EC).
        destruct (ternary_sem _ _ _ _ _ _ _ _ _ _ O3 Hva3 Hvb3 Hvc Ho Hne H) as (us & v & U & O4 & Hv & R4 & C4). exists us, v. repeat (split; [assumption|]). split; [|exact C4].
        assert (forall s, (do! xs <- sq s [va; vb; vc]; match xs with [x; y; z] => apply_op op [x; y; z] | _ => Err end) = do! xs <- sq s [va; vb; vc]; apply_op op xs) as Hd.
        { intros s. cbn [sq]. destruct (den s va); try reflexivity. cbn [obind]. destruct (den s vb); try reflexivity. cbn [obind]. destruct (den s vc); reflexivity. }
        intros s. specialize (R4 s). cbn beta in *. rewrite Hd. exact R4. }
    exists (xs ++ ys ++ zs ++ us), v. split; [repeat (eapply pext_trans; [eassumption|]); assumption|]. split; [assumption|]. split; [assumption|]. split; [|intros _; apply computed_app, computed_app, computed_app; auto].
    pose proof (objs_nth _ _ _ O1 Hva) as Va. pose proof (objs_nth _ _ _ O2 Hvb) as Vb. pose proof (x_nreg _ _ _ X). pose proof (x_nreg _ _ _ Y). pose proof (x_nreg _ _ _ Z).
    set (fin := fun x y z => if optok_eqb op OP_CONDITIONAL then apply_cond x y z else apply_op op [x; y; z]) in *.
    assert (forall s s1, keeps (nreg σ) s s1 -> vteval (objs σ1) s1 b = vteval (objs σ) s b) as Hkb.
    { intros s s1 K. rewrite EO1. eapply vteval_keeps; eauto. }
    assert (forall s s1, keeps (nreg σ) s s1 -> vteval (objs σ1) s1 c = vteval (objs σ) s c) as Hkc.
    { intros s s1 K. rewrite EO1. eapply vteval_keeps; eauto. }
    assert (forall s s1, keeps (nreg σ1) s s1 -> vteval (objs σ2) s1 c = vteval (objs σ1) s c) as Hkc2.
    { intros s s1 K. rewrite EO2. eapply vteval_keeps; eauto. rewrite EO1. now apply vtok_app. }
    eapply runs_seq with (m := nreg σ1)
      (b2 := fun s1 => (do! x <- (do! p <- den s1 va; Ret (v_ty va, p)); do! y <- vteval (objs σ1) s1 b; do! z <- vteval (objs σ1) s1 c; fin x y z) = UB)
      (g2 := fun s1 s3 => (do! x <- (do! p <- den s1 va; Ret (v_ty va, p)); do! y <- vteval (objs σ1) s1 b; do! z <- vteval (objs σ1) s1 c; fin x y z) = do! p <- den s3 v; Ret (v_ty v, p)); [assumption|exact R1| | | |]; cbn beta.
    + eapply runs_seq with (m := nreg σ2)
        (b2 := fun s2 => (do! x <- (do! p <- den s2 va; Ret (v_ty va, p)); do! y <- (do! p <- den s2 vb; Ret (v_ty vb, p)); do! z <- vteval (objs σ2) s2 c; fin x y z) = UB)
        (g2 := fun s2 s3 => (do! x <- (do! p <- den s2 va; Ret (v_ty va, p)); do! y <- (do! p <- den s2 vb; Ret (v_ty vb, p)); do! z <- vteval (objs σ2) s2 c; fin x y z) = do! p <- den s3 v; Ret (v_ty v, p)); [assumption|exact R2| | | |]; cbn beta.
      * eapply runs_seq with (m := nreg σ3); [assumption|exact R3|exact R4| | |]; cbn beta.
        -- intros s B. destruct (den_cases s va) as [E|(p & E)]; rewrite E; cbn [obind]; [reflexivity|]. destruct (den_cases s vb) as [E2|(q & E2)]; rewrite E2; cbn [obind]; [reflexivity|]. rewrite B. reflexivity.
        -- intros s s1 K _ G B. cbn [sq] in B. assert (vok (nreg σ2) va) as Va2 by (eapply vok_mono; eauto). rewrite (den_keeps _ _ _ _ K Va2), (den_keeps _ _ _ _ K Vb) in B.
           destruct (den_cases s va) as [E|(p & E)]; rewrite E in *; cbn [obind] in *; [reflexivity|]. destruct (den_cases s vb) as [E2|(q & E2)]; rewrite E2 in *; cbn [obind] in *; [reflexivity|].
           rewrite G. destruct (den_cases s1 vc) as [E3|(r & E3)]; rewrite E3 in *; cbn [obind] in *; auto.
        -- intros s s1 s2 K Kb G B. rewrite <- B. cbn [sq]. assert (vok (nreg σ2) va) as Va2 by (eapply vok_mono; eauto). rewrite (den_keeps _ _ _ _ K Va2), (den_keeps _ _ _ _ K Vb).
           destruct (den s va); try reflexivity. cbn [obind]. destruct (den s vb); try reflexivity. cbn [obind]. rewrite G. destruct (den s1 vc); reflexivity.
      * intros s B. destruct (den_cases s va) as [E|(p & E)]; rewrite E; cbn [obind]; [reflexivity|]. rewrite B. reflexivity.
      * intros s s1 K _ G B. rewrite (den_keeps _ _ _ _ K Va) in B. rewrite G. rewrite <- (Hkc2 s s1 K). exact B.
      * intros s s1 s2 K Kb G B. rewrite <- B. rewrite (den_keeps _ _ _ _ K Va), G, <- (Hkc2 s s1 K). reflexivity.
    + intros s B. cbn [vteval]. rewrite B. reflexivity.
    + intros s s1 K _ G B. cbn [vteval]. rewrite G. rewrite <- (Hkb s s1 K), <- (Hkc s s1 K). exact B.
    + intros s s1 s2 K Kb G B. cbn [vteval]. rewrite G. rewrite <- (Hkb s s1 K), <- (Hkc s s1 K). exact B.
Qed.

(** If the second phase succeeds, no part of the tree has a type error. *)
Fixpoint nerr (O : list value) (t : vt) : Prop :=
  (forall s, vteval O s t = UB \/ exists x, vteval O s t = Ret x) /\
  match t with
  | VLeaf _ => True
  | VUn _ a => nerr O a
  | VBin _ a b => nerr O a /\ nerr O b
  | VTern _ a b c => nerr O a /\ nerr O b /\ nerr O c
  end.
Lemma nerr_cases O t s : nerr O t -> vteval O s t = UB \/ exists x, vteval O s t = Ret x.
Proof. destruct t; cbn [nerr]; intros [H _]; apply H. Qed.
Lemma nerr_app n O os t : Forall (vok n) O -> vtok O t -> nerr (O ++ os) t <-> nerr O t.
Proof.
  intros HO. induction t as [id|op x IHx|op x IHx y IHy|op x IHx y IHy z IHz]; intros Hv.
  - cbn [nerr]. split; intros [H _]; split; auto; intros s; specialize (H s); rewrite (vteval_keeps n O os s s) in *; auto using keeps_refl.
  - cbn [nerr]. destruct (Hv) as [_ Hx]. rewrite (IHx Hx). split; intros [H H2]; split; auto; intros s; specialize (H s); rewrite (vteval_keeps n O os s s) in *; auto using keeps_refl.
  - cbn [nerr]. destruct (Hv) as (_ & _ & _ & Hx & Hy). rewrite (IHx Hx), (IHy Hy). split; intros [H H2]; split; auto; intros s; specialize (H s); rewrite (vteval_keeps n O os s s) in *; auto using keeps_refl.
  - cbn [nerr]. destruct (Hv) as (_ & Hx & Hy & Hz). rewrite (IHx Hx), (IHy Hy), (IHz Hz). split; intros [H H2]; split; auto; intros s; specialize (H s); rewrite (vteval_keeps n O os s s) in *; auto using keeps_refl.
Qed.
Lemma produces_nerr σ σ' id d P : produces σ σ' id d P -> forall s, d s = UB \/ exists x, d s = Ret x.
Proof.
  intros (xs & v & _ & _ & _ & R & _) s. destruct (R s) as [[_ B]|(s' & _ & _ & _ & G)]; [auto|]. rewrite G. destruct (den_cases s' v) as [E|(a & E)]; rewrite E; cbn [obind]; eauto.
Qed.
Lemma second_nerr t : forall σ id σ', objs_ok σ -> vtok (objs σ) t -> second t σ = Ret (id, σ') -> nerr (objs σ) t.
Proof.
  induction t as [i|op a IHa|op a IHa b IHb|op a IHa b IHb c IHc]; intros σ id σ' Hok Hvt H; pose proof (produces_nerr _ _ _ _ _ (second_sem _ _ _ _ Hok Hvt H)) as HN; cbn [second vtok] in *.
  - split; auto.
  - destruct Hvt as [Ho Ha]. destruct (second a σ) as [[x σ1]| | |] eqn:Ea; try discriminate. split; eauto.
  - destruct Hvt as (Ho & Hp & Hn & Ha & Hb). destruct (second a σ) as [[x σ1]| | |] eqn:Ea; try discriminate. cbn [obind] in H.
    destruct (second b σ1) as [[y σ2]| | |] eqn:Eb; try discriminate.
    destruct (second_sem _ _ _ _ Hok Ha Ea) as (xs & va & X & O1 & Hva & R1 & _). destruct (x_objs _ _ _ X) as (os1 & EO).
    split; [exact HN|]. split; [eauto|]. rewrite <- (nerr_app (nreg σ) _ os1 b Hok Hb), <- EO. eapply IHb; eauto. rewrite EO. now apply vtok_app.
  - destruct Hvt as (Ho & Ha & Hb & Hc). destruct (second a σ) as [[x σ1]| | |] eqn:Ea; try discriminate. cbn [obind] in H.
    destruct (second b σ1) as [[y σ2]| | |] eqn:Eb; try discriminate. cbn [obind] in H.
    destruct (second c σ2) as [[z σ3]| | |] eqn:Ec; try discriminate.
    destruct (second_sem _ _ _ _ Hok Ha Ea) as (xs & va & X & O1 & Hva & R1 & _). destruct (x_objs _ _ _ X) as (os1 & EO).
    assert (vtok (objs σ1) b) as Hb1 by (rewrite EO; now apply vtok_app).
    destruct (second_sem _ _ _ _ O1 Hb1 Eb) as (ys & vb & Y & O2 & Hvb & R2 & _). destruct (x_objs _ _ _ Y) as (os2 & EO2).
    split; [exact HN|]. split; [eauto|]. split.
    + rewrite <- (nerr_app (nreg σ) _ os1 b Hok Hb), <- EO. eapply IHb; eauto.
    + rewrite <- (nerr_app (nreg σ) _ (os1 ++ os2) c Hok Hc). rewrite app_assoc, <- EO, <- EO2. eapply IHc; eauto. rewrite EO2, EO. now apply vtok_app, vtok_app.
Qed.

Lemma second_sem2 t σ id σ' : objs_ok σ -> vtok (objs σ) t -> second t σ = Ret (id, σ') ->
  exists xs v, pext xs σ σ' /\ objs_ok σ' /\ nth_error (objs σ') id = Some v /\
    runs (nreg σ) xs (fun s => vteval (objs σ) s t = UB) (fun s s' => vteval (objs σ) s t = do! a <- den s' v; Ret (v_ty v, a)) /\
    match t with VLeaf i => xs = [] /\ i = id /\ σ' = σ | _ => computed xs v end.
Proof.
  intros Hok Hvt H. destruct (second_sem _ _ _ _ Hok Hvt H) as (xs & v & X & O1 & Hv & R & C). destruct t as [i| | |].
  - cbn [second] in H. injection H as <- <-. exists [], v. split; [apply pext_refl|]. split; [assumption|]. split; [assumption|]. split; [|auto].
    intros s. right. exists s. split; [reflexivity|]. split; [apply keeps_refl|]. split; [reflexivity|]. cbn [vteval]. rewrite Hv. reflexivity.
  - exists xs, v. auto 6.
  - exists xs, v. auto 6.
  - exists xs, v. auto 6.
Qed.

(** *** The first phase *)
(** The environment agrees with the variables of the generator. *)
Variable X0 : text -> Prop. (* the names that may be read *)
Definition Menv (σ : cg) (s : rt) (ρ : env) : Prop :=
  forall x, X0 x -> match find_text (named σ) x with
            | None => x = lit "pi" \/ x = lit "e" -> ρ x = None
            | Some id => exists v, nth_error (objs σ) id = Some v /\ x <> lit "pi" /\ x <> lit "e" /\
                         ρ x = match den s v with Ret a => Some (v_ty v, a) | _ => None end
            end.
Lemma Menv_pext xs σ σ' s s' ρ : objs_ok σ -> pext xs σ σ' -> keeps (nreg σ) s s' -> Menv σ s ρ -> Menv σ' s' ρ.
Proof.
  intros Hok X K H x Hx. rewrite (x_named _ _ _ X). specialize (H x Hx). destruct (find_text (named σ) x) as [id|]; [|exact H].
  destruct H as (v & E & H1 & H2 & H3). exists v. split; [eapply pext_nth; eauto|]. repeat (split; [assumption|]). rewrite (den_keeps _ _ _ _ K); auto. eapply objs_nth; eauto.
Qed.
Definition nok (σ : cg) : Prop := forall x id, find_text (named σ) x = Some id -> id < length (objs σ).
Lemma nok_pext xs σ σ' : pext xs σ σ' -> nok σ -> nok σ'.
Proof. intros X H x id E. rewrite (x_named _ _ _ X) in E. destruct (x_objs _ _ _ X) as (os & ->). rewrite app_length. specialize (H x id E). lia. Qed.
Notation bnode := (build_node llvm19 op_fun fsig).
Notation bnodes := (build_nodes bnode).
Definition P1 (ns : list node) (nv : bool) (ev : env -> W -> outcome (W * (vty * V))) : Prop :=
  forall rest σ es σ2, objs_ok σ -> nok σ -> bnodes (ns ++ rest) σ = Ret (es, σ2) ->
  exists t σ1 es2 xs, es = post t ++ es2 /\ bnodes rest σ1 = Ret (es2, σ2) /\ pext xs σ σ1 /\ objs_ok σ1 /\ vtok (objs σ1) t /\
    (nv = true -> match t with VLeaf id => exists v, nth_error (objs σ1) id = Some v /\ computed xs v | _ => True end) /\
    forall ρ s, Menv σ s ρ ->
      (execi xs s = UB /\ (nerr (objs σ1) t -> ev ρ (world s) = UB)) \/
      (exists s', execi xs s = Ret s' /\ keeps (nreg σ) s s' /\ ev ρ (world s) = do! x <- vteval (objs σ1) s' t; Ret (world s', x)).
Definition F1 (ns : list node) (nv : bool) (ev : env -> W -> outcome (W * (vty * V))) : Prop :=
  forall σ id σ', objs_ok σ -> nok σ -> build_rpn_with llvm19 op_fun bnode ns σ = Ret (id, σ') ->
  exists xs v, pext xs σ σ' /\ objs_ok σ' /\ nth_error (objs σ') id = Some v /\ (nv = true -> computed xs v) /\
    forall ρ s, Menv σ s ρ ->
      (execi xs s = UB /\ ev ρ (world s) = UB) \/
      (exists s', execi xs s = Ret s' /\ keeps (nreg σ) s s' /\ ev ρ (world s) = do! a <- den s' v; Ret (world s', (v_ty v, a))).
Lemma P1_F1 ns nv ev : P1 ns nv ev -> F1 ns nv ev.
Proof.
  intros HP σ id σ' Hok Hnk H. unfold build_rpn_with in H. destruct (bnodes ns σ) as [[es σ1]| | |] eqn:E; try discriminate. cbn [obind] in H.
  rewrite <- (app_nil_r ns) in E. destruct (HP [] σ es σ1 Hok Hnk E) as (t & σ1' & es2 & xs & Ees & Eb & X & O1 & Hvt & Hnv & Sem). cbn in Eb. injection Eb as <- <-. rewrite app_nil_r in Ees. subst es.
  unfold eval_stack in H. rewrite <- (app_nil_r (post t)), (eval_nodes_post _ _ _ _ _ Hvt) in H.
  destruct (second t σ1') as [[i σ2]| | |] eqn:E2; try discriminate. cbn [obind eval_nodes] in H. injection H as -> ->.
  pose proof (second_nerr _ _ _ _ O1 Hvt E2) as HN. destruct (second_sem2 _ _ _ _ O1 Hvt E2) as (ys & v & Y & O2 & Hv & R & C).
  exists (xs ++ ys), v. split; [eapply pext_trans; eauto|]. split; [assumption|]. split; [assumption|].
  split. { intros Hn. specialize (Hnv Hn). destruct t; try (apply computed_app, C). destruct C as (-> & -> & ->). rewrite app_nil_r. destruct Hnv as (v' & Hv' & Hc). rewrite Hv in Hv'. injection Hv' as <-. exact Hc. } intros ρ s HM. rewrite execi_app.
  destruct (Sem ρ s HM) as [[B1 B2]|(s1 & E1 & K1 & G1)]; [left; rewrite B1; auto|]. rewrite E1. cbn [obind].
  destruct (R s1) as [[B2 B3]|(s2 & E3 & K2 & W2 & G2)]; cbn beta in *.
  - left. split; [assumption|]. rewrite G1, B3. reflexivity.
  - right. exists s2. split; [assumption|]. split; [eapply keeps_trans; [apply (x_nreg _ _ _ X)| |]; eauto|]. rewrite G1, G2, W2. destruct (den s2 v); reflexivity.
Qed.
Lemma P1_ext ns nv ev ev' : (forall ρ w, ev ρ w = ev' ρ w) -> P1 ns nv ev -> P1 ns nv ev'.
Proof.
  intros HE HP rest σ es σ2 Hok Hnk H. destruct (HP rest σ es σ2 Hok Hnk H) as (t & σ1 & es2 & xs & H1 & H2 & H3 & H4 & H5 & H6 & H7).
  exists t, σ1, es2, xs. repeat (split; [assumption|]). intros ρ s HM. rewrite <- !HE. auto.
Qed.
Lemma bnodes_cons n rest σ es σ2 : bnodes (n :: rest) σ = Ret (es, σ2) ->
  exists e σ1 es2, bnode n σ = Ret (e, σ1) /\ bnodes rest σ1 = Ret (es2, σ2) /\ es = e :: es2.
Proof.
  cbn [build_nodes]. intros H. destruct (bnode n σ) as [[e σ1]| | |] eqn:E1; try discriminate. cbn [obind] in H. destruct (bnodes rest σ1) as [[es2 σ3]| | |] eqn:E2; try discriminate. cbn [obind] in H.
  injection H as <- <-. exists e, σ1, es2. auto.
Qed.
(** A node that adds a value without code *)
Lemma new_value_pext t l σ id σ' : objs_ok σ -> vok (nreg σ) (Val t l) -> new_value t l σ = (id, σ') ->
  pext [] σ σ' /\ objs_ok σ' /\ nth_error (objs σ') id = Some (Val t l).
Proof.
  unfold new_value. intros Hok Hv H. injection H as <- <-. split; [|split].
  - constructor; cbn; auto. now rewrite emit_at_nil. eauto.
  - unfold objs_ok. cbn. apply Forall_app. split; auto.
  - cbn. rewrite nth_error_app2, Nat.sub_diag; auto.
Qed.
Lemma P1_const n k ty :
  (forall σ e σ', bnode n σ = Ret (e, σ') -> exists id, e = E_val id /\ new_value ty (LVal (OConst k)) σ = (id, σ')) ->
  forall ev, (forall ρ w, ev ρ w = Ret (w, (ty, konst_val k))) -> P1 [n] true ev.
Proof.
  intros Hn ev Hev rest σ es σ2 Hok Hnk H. apply bnodes_cons in H as (e & σ1 & es2 & Hb & Hr & ->).
  destruct (Hn _ _ _ Hb) as (id & -> & Hnv). destruct (new_value_pext _ (LVal (OConst k)) _ _ _ Hok I Hnv) as (X & O1 & Hv).
  exists (VLeaf id), σ1, es2, []. repeat (split; [first [reflexivity|assumption]|]). split; [cbn; eapply nth_error_lt; eauto|].
  split. { intros _. eexists. split; [eassumption|]. exists (OConst k). split; [reflexivity|]. intros s s' _. cbn. eauto. }
  intros ρ s HM. right. exists s. split; [reflexivity|]. split; [apply keeps_refl|]. cbn [vteval]. rewrite Hv, Hev. reflexivity.
Qed.
Lemma P1_var x : X0 x -> P1 [N_var x] false (fun ρ w => eval ρ w (EVar x)).
Proof.
  intros Hx rest σ es σ2 Hok Hnk H. apply bnodes_cons in H as (e & σ1 & es2 & Hb & Hr & ->). cbn [build_node] in Hb. unfold get_local_var in Hb.
  destruct (find_text (named σ) x) as [id|] eqn:E.
  - cbn [obind] in Hb. injection Hb as <- <-.
    pose proof (Hnk _ _ E) as Hlt. destruct (nth_error (objs σ) id) as [v|] eqn:Ev; [|apply nth_error_None in Ev; lia].
    exists (VLeaf id), σ, es2, []. split; [reflexivity|]. split; [assumption|]. split; [apply pext_refl|]. split; [assumption|]. split; [exact Hlt|]. split; [discriminate|].
    intros ρ s HM. right. exists s. split; [reflexivity|]. split; [apply keeps_refl|]. cbn [Codegen_Spec.eval vteval]. specialize (HM x Hx). rewrite E in HM. destruct HM as (v' & Ev' & H1 & H2 & H3).
    rewrite Ev in Ev'. injection Ev' as <-. rewrite Ev, H3. destruct (den_cases s v) as [Ed|(a & Ed)]; rewrite Ed; [|reflexivity].
    destruct (text_eqb x (lit "pi")) eqn:E1; [apply text_eqb_eq in E1; congruence|]. destruct (text_eqb x (lit "e")) eqn:E2; [apply text_eqb_eq in E2; congruence|]. reflexivity.
  - assert (exists k id, e = E_val id /\ new_value (TNum F64) (LVal (OConst k)) σ = (id, σ1) /\ (x = lit "pi" \/ x = lit "e") /\ forall ρ w, ρ x = None -> eval ρ w (EVar x) = Ret (w, (TNum F64, konst_val k))) as (k & id & -> & Hnv & Hpe & Hev).
    { destruct (text_eqb x (lit "pi")) eqn:E1.
      - destruct (new_value (TNum F64) (LVal (OConst KPi)) σ) as [id σ3] eqn:En. cbn [obind] in Hb. injection Hb as <- <-. exists KPi, id. split; [reflexivity|]. split; [assumption|]. split; [left; now apply text_eqb_eq|]. intros ρ w Hn. cbn [Codegen_Spec.eval]. rewrite Hn, E1. reflexivity.
      - destruct (text_eqb x (lit "e")) eqn:E2; [|discriminate Hb].
        destruct (new_value (TNum F64) (LVal (OConst KE)) σ) as [id σ3] eqn:En. cbn [obind] in Hb. injection Hb as <- <-. exists KE, id. split; [reflexivity|]. split; [assumption|]. split; [right; now apply text_eqb_eq|]. intros ρ w Hn. cbn [Codegen_Spec.eval]. rewrite Hn, E1, E2. reflexivity. }
    destruct (new_value_pext _ (LVal (OConst k)) _ _ _ Hok I Hnv) as (X & O1 & Hv).
    exists (VLeaf id), σ1, es2, []. repeat (split; [first [reflexivity|assumption]|]). split; [cbn; eapply nth_error_lt; eauto|]. split; [discriminate|].
    intros ρ s HM. right. exists s. split; [reflexivity|]. split; [apply keeps_refl|]. cbn [vteval]. specialize (HM x Hx). rewrite E in HM. rewrite Hv, (Hev _ _ (HM Hpe)). reflexivity.
Qed.

(** Operators *)
Lemma P1_un op na va ea : operand_count op = Some 1 -> P1 na va ea ->
  P1 (na ++ [N_op op]) true (fun ρ w => do! (w, x) <- ea ρ w; do! r <- apply_op op [x]; Ret (w, r)).
Proof.
  intros Ho Ha rest σ es σ2 Hok Hnk H. rewrite <- app_assoc in H.
  destruct (Ha _ _ _ _ Hok Hnk H) as (t & σ1 & es1 & xs & -> & H1 & X & O1 & V1 & _ & S1).
  apply bnodes_cons in H1 as (e & σ3 & es2 & Hb & Hr & ->). cbn in Hb. injection Hb as <- <-.
  exists (VUn op t), σ1, es2, xs. cbn [post vtok]. rewrite <- app_assoc. repeat (split; [first [reflexivity|assumption|now split]|]).
  intros ρ s HM. destruct (S1 ρ s HM) as [[B1 B2]|(s1 & E1 & K1 & G1)].
  - left. split; [assumption|]. cbn [nerr]. intros [_ HN]. rewrite (B2 HN). reflexivity.
  - right. exists s1. split; [assumption|]. split; [assumption|]. rewrite G1. cbn [vteval]. destruct (vteval (objs σ1) s1 t); reflexivity.
Qed.
Lemma P1_bin op na nb va vb ea eb : operand_count op = Some 2 -> plain_op op = (op, false) -> op <> OP_ASSIGN -> P1 na va ea -> P1 nb vb eb ->
  P1 (na ++ nb ++ [N_op op]) true (fun ρ w => do! (w, x) <- ea ρ w; do! (w, y) <- eb ρ w; do! r <- apply_op op [x; y]; Ret (w, r)).
Proof.
  intros Ho Hp Hn Ha Hb rest σ es σ2 Hok Hnk H. rewrite <- !app_assoc in H.
  destruct (Ha _ _ _ _ Hok Hnk H) as (ta & σ1 & es1 & xs & -> & H1 & X & O1 & V1 & _ & S1). pose proof (nok_pext _ _ _ X Hnk) as Hnk1.
  destruct (Hb _ _ _ _ O1 Hnk1 H1) as (tb & σ3 & es3 & ys & -> & H3 & Y & O3 & V3 & _ & S3).
  apply bnodes_cons in H3 as (e & σ4 & es2 & Hbn & Hr & ->). cbn in Hbn. injection Hbn as <- <-.
  destruct (x_objs _ _ _ Y) as (os & EO).
  exists (VBin op ta tb), σ3, es2, (xs ++ ys). cbn [post vtok]. rewrite <- !app_assoc. split; [reflexivity|]. split; [assumption|]. split; [eapply pext_trans; eauto|]. split; [assumption|].
  split. { repeat (split; [assumption|]). split; [rewrite EO; now apply vtok_app|assumption]. } split; [auto|].
  intros ρ s HM. rewrite execi_app. destruct (S1 ρ s HM) as [[B1 B2]|(s1 & E1 & K1 & G1)].
  - left. rewrite B1. split; [reflexivity|]. cbn [nerr]. intros (_ & HN & _). rewrite EO, nerr_app in HN by eauto. rewrite (B2 HN). reflexivity.
  - rewrite E1. cbn [obind]. rewrite G1. destruct (S3 ρ s1 (Menv_pext _ _ _ _ _ _ Hok X K1 HM)) as [[B1 B2]|(s2 & E2 & K2 & G2)].
    + left. split; [assumption|]. cbn [nerr]. intros (_ & HN & HN2). rewrite EO, nerr_app in HN by eauto. destruct (nerr_cases _ _ s1 HN) as [EU|(x & EU)]; rewrite EU; cbn [obind]; [reflexivity|].
      rewrite (B2 HN2). reflexivity.
    + right. exists s2. split; [assumption|]. split; [eapply keeps_trans; [apply (x_nreg _ _ _ X)| |]; eauto|]. cbn [vteval].
      assert (vteval (objs σ3) s2 ta = vteval (objs σ1) s1 ta) as -> by (rewrite EO; eapply vteval_keeps; eauto).
      destruct (vteval (objs σ1) s1 ta); try reflexivity. cbn [obind]. rewrite G2. destruct (vteval (objs σ3) s2 tb); reflexivity.
Qed.
Lemma P1_tern op na nb nc va vb vc ea eb ec : operand_count op = Some 3 -> P1 na va ea -> P1 nb vb eb -> P1 nc vc ec ->
  P1 (na ++ nb ++ nc ++ [N_op op]) true (fun ρ w => do! (w, x) <- ea ρ w; do! (w, y) <- eb ρ w; do! (w, z) <- ec ρ w;
     do! r <- (if optok_eqb op OP_CONDITIONAL then apply_cond x y z else apply_op op [x; y; z]); Ret (w, r)).
Proof.
  intros Ho Ha Hb Hc rest σ es σ2 Hok Hnk H. rewrite <- !app_assoc in H.
  destruct (Ha _ _ _ _ Hok Hnk H) as (ta & σ1 & es1 & xs & -> & H1 & X & O1 & V1 & _ & S1). pose proof (nok_pext _ _ _ X Hnk) as Hnk1.
  destruct (Hb _ _ _ _ O1 Hnk1 H1) as (tb & σ3 & es3 & ys & -> & H3 & Y & O3 & V3 & _ & S3). pose proof (nok_pext _ _ _ Y Hnk1) as Hnk3.
  destruct (Hc _ _ _ _ O3 Hnk3 H3) as (tc & σ5 & es5 & zs & -> & H5 & Z & O5 & V5 & _ & S5).
  apply bnodes_cons in H5 as (e & σ4 & es2 & Hbn & Hr & ->). cbn in Hbn. injection Hbn as <- <-.
  destruct (x_objs _ _ _ Y) as (os & EO). destruct (x_objs _ _ _ Z) as (os' & EO'). pose proof (x_nreg _ _ _ X). pose proof (x_nreg _ _ _ Y).
  assert (vtok (objs σ3) ta) as V1' by (rewrite EO; now apply vtok_app).
  exists (VTern op ta tb tc), σ5, es2, (xs ++ ys ++ zs). cbn [post vtok]. rewrite <- !app_assoc. split; [reflexivity|]. split; [assumption|]. split; [eapply pext_trans; [eauto|]; eapply pext_trans; eauto|]. split; [assumption|].
  split. { split; [assumption|]. split; [rewrite EO'; now apply vtok_app|]. split; [rewrite EO'; now apply vtok_app|assumption]. } split; [auto|].
  intros ρ s HM. rewrite execi_app. destruct (S1 ρ s HM) as [[B1 B2]|(s1 & E1 & K1 & G1)].
  - left. rewrite B1. split; [reflexivity|]. cbn [nerr]. intros (_ & HN & _). rewrite EO', nerr_app in HN by eauto. rewrite EO, nerr_app in HN by eauto. rewrite (B2 HN). reflexivity.
  - rewrite E1. cbn [obind]. rewrite execi_app, G1. pose proof (Menv_pext _ _ _ _ _ _ Hok X K1 HM) as HM1. destruct (S3 ρ s1 HM1) as [[B1 B2]|(s2 & E2 & K2 & G2)].
    + left. rewrite B1. split; [reflexivity|]. cbn [nerr]. intros (_ & HN & HN2 & _). rewrite EO', nerr_app in HN, HN2 by eauto. rewrite EO, nerr_app in HN by eauto.
      destruct (nerr_cases _ _ s1 HN) as [EU|(x & EU)]; rewrite EU; cbn [obind]; [reflexivity|]. rewrite (B2 HN2). reflexivity.
    + rewrite E2. cbn [obind]. destruct (S5 ρ s2 (Menv_pext _ _ _ _ _ _ O1 Y K2 HM1)) as [[B1 B2]|(s3 & E3 & K3 & G3)].
      * left. split; [assumption|]. cbn [nerr]. intros (_ & HN & HN2 & HN3). rewrite EO', nerr_app in HN, HN2 by eauto. rewrite EO, nerr_app in HN by eauto.
        destruct (nerr_cases _ _ s1 HN) as [EU|(x & EU)]; rewrite EU; cbn [obind]; [reflexivity|]. rewrite G2. destruct (nerr_cases _ _ s2 HN2) as [EV|(y & EV)]; rewrite EV; cbn [obind]; [reflexivity|].
        rewrite (B2 HN3). reflexivity.
      * right. exists s3. split; [assumption|]. split; [eapply keeps_trans with (m := nreg σ1); [assumption|exact K1|]; eapply keeps_trans; [|exact K2|exact K3]; assumption|]. cbn [vteval].
        assert (vteval (objs σ5) s3 ta = vteval (objs σ3) s2 ta) as -> by (rewrite EO'; eapply vteval_keeps; eauto).
        assert (vteval (objs σ3) s2 ta = vteval (objs σ1) s1 ta) as -> by (rewrite EO; eapply vteval_keeps; eauto).
        assert (vteval (objs σ5) s3 tb = vteval (objs σ3) s2 tb) as -> by (rewrite EO'; eapply vteval_keeps; eauto).
        destruct (vteval (objs σ1) s1 ta); try reflexivity. cbn [obind]. rewrite G2. destruct (vteval (objs σ3) s2 tb); try reflexivity. cbn [obind]. rewrite G3.
        destruct (vteval (objs σ5) s3 tc); reflexivity.
Qed.

(** Calls *)
Definition evals (ρ : env) : W -> list expr -> outcome (W * list (vty * V)) :=
  fix evals w (es : list expr) : outcome (W * list (vty * V)) :=
    match es with
    | [] => Ret (w, [])
    | e :: es' => do! (w, x) <- eval ρ w e; do! (w, xs) <- evals w es'; Ret (w, x :: xs)
    end.
Lemma eval_call ρ w f es : eval ρ w (ECall f es) =
  do! (w, xs) <- evals ρ w es;
  match find_text function_operators f with
  | Some (op, _) => do! r <- apply_op op xs; Ret (w, r)
  | None => do! (ts, rt) <- typed (fsig f); do! vs <- convert_each conv xs ts; do! (w, v) <- total ext f w vs; Ret (w, (rt, v))
  end.
Proof. reflexivity. Qed.
Lemma build_args_sem es : Forall (fun e => P1 (emitE e) (negb (is_var e)) (fun ρ w => eval ρ w e)) es ->
  forall σ ids σ', objs_ok σ -> nok σ -> build_args llvm19 op_fun bnode (map emitE es) σ = Ret (ids, σ') ->
  exists xs vs, pext xs σ σ' /\ objs_ok σ' /\ Forall2 (fun id v => nth_error (objs σ') id = Some v) ids vs /\
    forall ρ s, Menv σ s ρ ->
      (execi xs s = UB /\ evals ρ (world s) es = UB) \/
      (exists s', execi xs s = Ret s' /\ keeps (nreg σ) s s' /\ evals ρ (world s) es = do! l <- sq s' vs; Ret (world s', l)).
Proof.
  induction 1 as [|e es He _ IH]; intros σ ids σ' Hok Hnk H; cbn [map build_args] in H.
  - injection H as <- <-. exists [], []. split; [apply pext_refl|]. split; [assumption|]. split; [constructor|]. intros ρ s _. right. exists s. split; [reflexivity|]. split; [apply keeps_refl|]. reflexivity.
  - destruct (build_rpn_with llvm19 op_fun bnode (emitE e) σ) as [[id σ1]| | |] eqn:E; try discriminate. cbn [obind] in H.
    destruct (build_args llvm19 op_fun bnode (map emitE es) σ1) as [[ids1 σ2]| | |] eqn:E2; try discriminate. injection H as <- <-.
    destruct (P1_F1 _ _ _ He _ _ _ Hok Hnk E) as (xs & v & X & O1 & Hv & _ & S1). pose proof (nok_pext _ _ _ X Hnk) as Hnk1.
    destruct (IH _ _ _ O1 Hnk1 E2) as (ys & vs & Y & O2 & HF & S2).
    exists (xs ++ ys), (v :: vs). split; [eapply pext_trans; eauto|]. split; [assumption|]. split; [constructor; auto; eapply pext_nth; eauto|].
    intros ρ s HM. rewrite execi_app. cbn [evals]. destruct (S1 ρ s HM) as [[B1 B2]|(s1 & E1 & K1 & G1)].
    { left. rewrite B1, B2. split; reflexivity. }
    rewrite E1. cbn [obind]. rewrite G1. destruct (S2 ρ s1 (Menv_pext _ _ _ _ _ _ Hok X K1 HM)) as [[B1 B2]|(s2 & E3 & K2 & G2)].
    + left. split; [assumption|]. destruct (den_cases s1 v) as [Ed|(a & Ed)]; rewrite Ed; cbn [obind]; [reflexivity|]. change ((fix evals (w : W) (es : list expr) := _) (world s1) es) with (evals ρ (world s1) es). rewrite B2. reflexivity.
    + right. exists s2. split; [assumption|]. split; [eapply keeps_trans; [apply (x_nreg _ _ _ X)| |]; eauto|]. cbn [sq].
      rewrite (den_keeps _ _ _ _ K2 (objs_nth _ _ _ O1 Hv)). destruct (den s1 v); try reflexivity. cbn [obind].
      change ((fix evals (w : W) (es : list expr) := _) (world s1) es) with (evals ρ (world s1) es). rewrite G2. destruct (sq s2 vs); reflexivity.
Qed.
Lemma P1_call f es : find_text function_operators f = None -> Forall (fun e => P1 (emitE e) (negb (is_var e)) (fun ρ w => eval ρ w e)) es ->
  P1 [N_call f (map emitE es)] true (fun ρ w => eval ρ w (ECall f es)).
Proof.
  intros Hf HF rest σ es' σ2 Hok Hnk H. apply bnodes_cons in H as (e & σ1 & es2 & Hb & Hr & ->). cbn [build_node] in Hb.
  change (build_args llvm19 op_fun _ (map emitE es) σ) with (build_args llvm19 op_fun bnode (map emitE es) σ) in Hb.
  destruct (build_args llvm19 op_fun bnode (map emitE es) σ) as [[ids σ3]| | |] eqn:E; try discriminate. cbn [obind] in Hb.
  destruct (call_function fsig f ids σ3) as [[id σ4]| | |] eqn:E2; try discriminate. cbn [obind] in Hb. injection Hb as <- ->.
  destruct (build_args_sem _ HF _ _ _ Hok Hnk E) as (xs & vs & X & O3 & Hvs & S1).
  destruct (call_sem _ _ _ _ _ _ O3 Hvs E2) as (ts & ys & v & Hsig & Y & O4 & Hv & HC & (o & Hlo) & S2).
  exists (VLeaf id), σ1, es2, (xs ++ ys). split; [reflexivity|]. split; [assumption|]. split; [eapply pext_trans; eauto|]. split; [assumption|]. split; [cbn; eapply nth_error_lt; eauto|].
  split. { intros _. exists v. split; [assumption|]. apply computed_app. exists o. split; [assumption|]. intros s s' E'. destruct (S2 s) as [[B _]|(s2 & ws & E3 & _ & _ & _ & a & G4)]; [congruence|]. rewrite E3 in E'. injection E' as <-. eauto. }
  intros ρ s HM. rewrite execi_app, eval_call, Hf. destruct (S1 ρ s HM) as [[B1 B2]|(s1 & E1 & K1 & G1)].
  { left. rewrite B1, B2. split; reflexivity. }
  rewrite E1. cbn [obind]. rewrite G1.
  assert (forall g : W -> list V -> outcome (W * (vty * V)), (do! (w, xs) <- (do! l <- sq s1 vs; Ret (world s1, l)); do! vs <- convert_each conv xs ts; g w vs) = do! vs <- cvs s1 vs ts; g (world s1) vs) as Hcv.
  { intros g. rewrite <- (cvs_convert _ _ _ HC). destruct (sq s1 vs); reflexivity. }
  rewrite Hsig. cbn [typed obind]. rewrite (Hcv (fun w vs => do! (w, x) <- total ext f w vs; Ret (w, (v_ty v, x)))).
  destruct (S2 s1) as [[B1 B2]|(s2 & ws & E3 & K2 & G2 & G3 & a & G4)].
  - left. rewrite B2. split; [assumption|reflexivity].
  - right. exists s2. split; [assumption|]. split; [eapply keeps_trans; [apply (x_nreg _ _ _ X)| |]; eauto|]. rewrite G2. cbn [obind vteval]. unfold total. rewrite G3, Hv, G4. reflexivity.
Qed.

Lemma pure_P1 : forall e, pure e = true -> Forall X0 (reads e) -> P1 (emitE e) (negb (is_var e)) (fun ρ w => eval ρ w e).
Proof.
  apply (expr_ind2 (fun e => pure e = true -> Forall X0 (reads e) -> P1 (emitE e) (negb (is_var e)) (fun ρ w => eval ρ w e)) (fun _ => True)); auto; try (intros; discriminate).
  - intros b _ _. apply (P1_const _ (KBool b) TBit).
    + intros σ e σ' H. cbn [build_node] in H. destruct (new_value TBit (LVal (OConst (KBool b))) σ) as [id σ1]. injection H as <- <-. eauto.
    + reflexivity.
  - intros v ty _ _ rest σ es σ2 Hok Hnk H. destruct (build_const (v, ty)) as [c| | |] eqn:E.
    + revert rest σ es σ2 Hok Hnk H. change (P1 (emitE (ENum v ty)) true (fun ρ w => eval ρ w (ENum v ty))). apply (P1_const _ (KNum c) (TNum (const_ty c))).
      * intros σ e σ' H. cbn [build_node] in H. rewrite E in H. cbn [obind] in H. destruct (new_value (TNum (const_ty c)) (LVal (OConst (KNum c))) σ) as [id σ1]. injection H as <- <-. eauto.
      * intros ρ w. cbn [Codegen_Spec.eval]. rewrite E. reflexivity.
    + exfalso. apply bnodes_cons in H as (e & σ1 & es2 & Hb & _). cbn [build_node] in Hb. rewrite E in Hb. discriminate.
    + exfalso. apply bnodes_cons in H as (e & σ1 & es2 & Hb & _). cbn [build_node] in Hb. rewrite E in Hb. discriminate.
    + exfalso. apply bnodes_cons in H as (e & σ1 & es2 & Hb & _). cbn [build_node] in Hb. rewrite E in Hb. discriminate.
  - intros x _ Hx. inversion Hx. now apply P1_var.
  - intros f es IH Hp HX. cbn [pure reads] in Hp, HX. apply andb_true_iff in Hp as [Hall Hk].
    assert (Forall (fun e => P1 (emitE e) (negb (is_var e)) (fun ρ w => eval ρ w e)) es) as HF.
    { clear Hk. induction IH as [|e es He _ IHs]; [constructor|]. cbn [forallb flat_map] in Hall, HX. apply andb_true_iff in Hall as [H1 H2]. apply Forall_app in HX as [X1 X2]. constructor; auto. }
    cbn [emitE]. rewrite builtin_op_table. destruct (find_text function_operators f) as [[op k]|] eqn:Ef; cbn [option_map fst].
    + pose proof (function_arity _ _ _ Ef) as Har. destruct (function_not_assign _ _ _ Ef) as (Hpl & Hna & Hnc). apply Nat.eqb_eq in Hk.
      assert (k = 1 \/ k = 2 \/ k = 3) as Hk3.
      { unfold operand_count in Har. destruct (is_unary_op op), (is_binary_op op), (is_ternary_op op); try discriminate Har; injection Har as <-; auto. }
      destruct Hk3 as [ -> |[ -> | -> ]].
      * destruct es as [|a [|b es]]; try discriminate Hk. inversion HF; subst. cbn [flat_map]. rewrite app_nil_r.
        eapply P1_ext; [|eapply P1_un; eauto]. intros ρ w. rewrite eval_call, Ef. cbn [evals]. destruct (eval ρ w a) as [[w1 x]| | |]; reflexivity.
      * destruct es as [|a [|b [|c es]]]; try discriminate Hk. inversion HF as [|? ? Ha HF1]; subst. inversion HF1 as [|? ? Hb HF2]; subst. cbn [flat_map]. rewrite app_nil_r, <- app_assoc.
        eapply P1_ext; [|eapply (P1_bin op); [exact Har|exact Hpl|exact Hna|exact Ha|exact Hb]]. intros ρ w. rewrite eval_call, Ef. cbn [evals]. destruct (eval ρ w a) as [[w1 x]| | |]; try reflexivity. cbn [obind].
        destruct (eval ρ w1 b) as [[w2 y]| | |]; reflexivity.
      * destruct es as [|a [|b [|c [|d es]]]]; try discriminate Hk. inversion HF as [|? ? Ha HF1]; subst. inversion HF1 as [|? ? Hb HF2]; subst. inversion HF2 as [|? ? Hc HF3]; subst. cbn [flat_map]. rewrite app_nil_r, <- !app_assoc.
        eapply P1_ext; [|eapply (P1_tern op); [exact Har|exact Ha|exact Hb|exact Hc]]. intros ρ w. rewrite eval_call, Ef. cbn [evals].
        assert (optok_eqb op OP_CONDITIONAL = false) as ->. { destruct (optok_eqb op OP_CONDITIONAL) eqn:E; auto. apply optok_eqb_eq in E. contradiction. }
        destruct (eval ρ w a) as [[w1 x]| | |]; try reflexivity. cbn [obind].
        destruct (eval ρ w1 b) as [[w2 y]| | |]; try reflexivity. cbn [obind]. destruct (eval ρ w2 c) as [[w3 z]| | |]; reflexivity.
    + destruct (other_name f) eqn:Eo; [|now apply P1_call].
      intros rest σ es' σ2 _ _ H. apply bnodes_cons in H as (e & σ1 & es2 & Hb & _). discriminate Hb.
  - intros op a IHa Hp HX. cbn [pure reads] in Hp, HX. apply andb_true_iff in Hp as [H1 H2]. cbn [emitE]. apply (P1_un op (emitE a) (negb (is_var a)) (fun ρ w => eval ρ w a)); auto using prefix_arity.
  - intros op a b IHa IHb Hp HX. cbn [pure reads] in Hp, HX. apply Forall_app in HX as [X1 X2]. apply andb_true_iff in Hp as [H1 H2]. apply andb_true_iff in H1 as [H0 H1]. destruct (infix_arity _ H0) as (A1 & A2 & A3).
    cbn [emitE]. apply (P1_bin op (emitE a) (emitE b) (negb (is_var a)) (negb (is_var b)) (fun ρ w => eval ρ w a) (fun ρ w => eval ρ w b)); auto.
  - intros c a b IHc IHa IHb Hp HX. cbn [pure reads] in Hp, HX. apply Forall_app in HX as [X1 X2]. apply Forall_app in X2 as [X2 X3]. apply andb_true_iff in Hp as [H1 H2]. apply andb_true_iff in H1 as [H0 H1].
    cbn [emitE]. apply (P1_tern OP_CONDITIONAL (emitE c) (emitE a) (emitE b) (negb (is_var c)) (negb (is_var a)) (negb (is_var b)) (fun ρ w => eval ρ w c) (fun ρ w => eval ρ w a) (fun ρ w => eval ρ w b)); auto.
Qed.

(** A computed expression *)
Lemma expr_sem o σ id σ' : pure (denote o) = true -> Forall X0 (reads (denote o)) -> objs_ok σ -> nok σ -> build_expr llvm19 op_fun fsig o σ = Ret (id, σ') ->
  exists xs v, pext xs σ σ' /\ objs_ok σ' /\ nth_error (objs σ') id = Some v /\ (is_var (denote o) = false -> computed xs v) /\
    forall ρ s, Menv σ s ρ ->
      (execi xs s = UB /\ eval ρ (world s) (denote o) = UB) \/
      (exists s', execi xs s = Ret s' /\ keeps (nreg σ) s s' /\ eval ρ (world s) (denote o) = do! a <- den s' v; Ret (world s', (v_ty v, a))).
Proof.
  intros Hp HX Hok Hnk H. unfold build_expr, build_rpn in H. rewrite emit_denote in H.
  destruct (P1_F1 _ _ _ (pure_P1 _ Hp HX) _ _ _ Hok Hnk H) as (xs & v & A & B & C & D & E). exists xs, v. repeat (split; [assumption|]). split; [|exact E]. intros Hv. apply D. now rewrite Hv.
Qed.
End E.
