(** Consequences of the simulation. *)
From Coq Require Import Ascii String List Bool Arith ZArith Lia.
Import ListNotations.
From Verif Require Import Base Lexer_Model Lexer_Proofs Op_Model Op_Lemmas Number_Model Parser_Model Parser_Spec Parser_Print Ir_Model Codegen_Model Codegen_Spec Codegen_Scope Codegen_Lemmas Codegen_Expr Codegen_Stmt Codegen_Shape Codegen_Flow Codegen_Sim Codegen_Func.

Lemma member_in x l : member x l = true <-> In x l.
Proof.
  unfold member. rewrite existsb_exists. split; [intros (y & Hy & E); apply text_eqb_eq in E; now subst|]. intros H. exists x. split; [assumption|apply text_eqb_refl].
Qed.

Section Results.
Context {V W : Type}.
Variable oper : optok -> vty -> list V -> option V.
Variable conv : vty -> vty -> V -> option V.
Variable ext : text -> W -> list V -> W * V.
Variable konst_val : konst -> V.
Variable truth : V -> bool.
Variable llvm19 : bool.
Variable op_fun : optok -> vty -> option vty.
Variable fsig : text -> option (list vty * vty).
Notation env := (@env V).
Notation eval := (eval oper conv (total ext) konst_val llvm19 op_fun fsig).
Notation exec_expr := (exec_expr oper conv (total ext) konst_val llvm19 op_fun fsig).
Notation eval_cond := (eval_cond oper conv (total ext) konst_val truth llvm19 op_fun fsig).
Notation exec := (exec oper conv (total ext) konst_val truth llvm19 op_fun fsig).
Notation execs := (execs oper conv (total ext) konst_val truth llvm19 op_fun fsig).
Notation run_body := (run_body oper conv (total ext) konst_val truth llvm19 op_fun fsig).
Notation apply_op := (apply_op oper conv llvm19 op_fun).
Notation type_of := (type_of llvm19 op_fun fsig).
Notation eval_lazy := (eval_lazy oper conv ext konst_val truth llvm19 op_fun fsig).

(** The evaluation of a list of expressions *)
Definition evals (ev : env -> W -> expr -> outcome (W * (vty * V))) (ρ : env) : W -> list expr -> outcome (W * list (vty * V)) :=
  fix evals w es :=
    match es with
    | [] => Ret (w, [])
    | e :: es' => do! (w, x) <- ev ρ w e; do! (w, xs) <- evals w es'; Ret (w, x :: xs)
    end.
Lemma eval_call ρ w f es : eval ρ w (ECall f es) =
  do! (w, xs) <- evals eval ρ w es;
      match find_text function_operators f with
      | Some (op, _) => do! r <- apply_op op xs; Ret (w, r)
      | None =>
          do! (ts, rt) <- typed (fsig f);
          do! vs <- convert_each conv xs ts;
          let (w, v) := ext f w vs in Ret (w, (rt, v))
      end.
Proof. reflexivity. Qed.

(** *** Types *)
Lemma vty_eqb_refl t : vty_eqb t t = true.
Proof. now apply vty_eqb_eq. Qed.
Lemma convert_ok x t v : convert conv x t = Ret v -> convertible (fst x) t = true.
Proof. unfold convert, convertible. destruct x as [s u]. cbn [fst]. destruct (vty_eqb s t); [reflexivity|]. destruct s, t; try discriminate. reflexivity. Qed.
Lemma convert_all_ok xs t : forall vs, convert_all conv xs t = Ret vs -> forallb (fun s => convertible s t) (map fst xs) = true.
Proof.
  induction xs as [|x xs IH]; intros vs H; [reflexivity|]. cbn [convert_all] in H. destruct (convert conv x t) eqn:E; try discriminate. cbn [obind] in H. destruct (convert_all conv xs t) eqn:E2; try discriminate.
  cbn [map forallb]. rewrite (convert_ok _ _ _ E). now rewrite (IH _ eq_refl).
Qed.
Lemma convert_each_ok xs : forall ts vs, convert_each conv xs ts = Ret vs -> length (map fst xs) = length ts /\ forallb (fun p => convertible (fst p) (snd p)) (combine (map fst xs) ts) = true.
Proof.
  induction xs as [|x xs IH]; intros [|t ts] vs H; try discriminate; [auto|]. cbn [convert_each] in H. destruct (convert conv x t) eqn:E; try discriminate. cbn [obind] in H. destruct (convert_each conv xs ts) eqn:E2; try discriminate.
  destruct (IH _ _ E2) as [L F]. cbn [map length combine forallb fst snd]. rewrite (convert_ok _ _ _ E), F, L. auto.
Qed.
Lemma apply_op_type op xs t v : apply_op op xs = Ret (t, v) -> op_type llvm19 op_fun op (map fst xs) = Some t.
Proof.
  unfold Codegen_Spec.apply_op, op_type. destruct (common (map fst xs)) as [c|]; [|discriminate]. cbn [typed obind]. destruct (result_type llvm19 op_fun op c) as [r|]; [|discriminate]. cbn [typed obind].
  destruct (convert_all conv xs c) eqn:E; try discriminate. cbn [obind]. destruct (oper op c a); [|discriminate]. cbn. intros H. injection H as <- <-. now rewrite (convert_all_ok _ _ _ E).
Qed.
Lemma eval_type ρ e : forall w w' t v, eval ρ w e = Ret (w', (t, v)) -> type_of (types ρ) e = Some t.
Proof.
  apply (expr_ind2 (fun e => forall w w' t v, eval ρ w e = Ret (w', (t, v)) -> type_of (types ρ) e = Some t) (fun _ => True)); auto; clear e.
  - intros b w w' t v H. injection H as <- <- <-. reflexivity.
  - intros d ty w w' t v H. cbn [Codegen_Spec.eval] in H. cbn [Codegen_Scope.type_of]. destruct (build_const (d, ty)) as [c| | |]; try discriminate. cbn [obind] in H. injection H as <- <- <-. destruct c; reflexivity.
  - intros s w w' t v H. discriminate.
  - intros x w w' t v H. cbn [Codegen_Spec.eval] in H. cbn [Codegen_Scope.type_of]. unfold types. destruct (ρ x) as [[tx vx]|]; cbn [option_map fst]; [injection H as <- <- <-; reflexivity|]. destruct (text_eqb x (lit "pi")); [injection H as <- <- <-; reflexivity|]. destruct (text_eqb x (lit "e")); [injection H as <- <- <-; reflexivity|discriminate].
  - intros f es IH w w' t v H. rewrite eval_call in H. cbn [Codegen_Scope.type_of].
    assert (forall w w' xs, evals eval ρ w es = Ret (w', xs) -> all_some (map (type_of (types ρ)) es) = Some (map fst xs)) as El.
    { clear H w w'. induction IH as [|e es He Hes IH]; intros w w' xs H; cbn [evals] in H; [injection H as <- <-; reflexivity|]. destruct (eval ρ w e) as [[w1 [t1 v1]]| | |] eqn:E1; try discriminate. cbn [obind] in H.
      destruct (evals eval ρ w1 es) as [[w2 ys]| | |] eqn:E2; try discriminate. cbn [obind] in H. injection H as <- <-. cbn [map all_some fst]. now rewrite (He _ _ _ _ E1), (IH _ _ _ E2). }
    destruct (evals eval ρ w es) as [[w1 xs]| | |] eqn:E; try discriminate. cbn [obind] in H. rewrite (El _ _ _ E). destruct (find_text function_operators f) as [[op k]|].
    + destruct (apply_op op xs) as [[t1 v1]| | |] eqn:E1; try discriminate. cbn [obind] in H. injection H as <- <- <-. eapply apply_op_type; eauto.
    + destruct (fsig f) as [[ts rt]|]; [|discriminate]. cbn [typed obind] in H. destruct (convert_each conv xs ts) eqn:E1; try discriminate. cbn [obind] in H. destruct (ext f w1 a). injection H as <- <- <-.
      destruct (convert_each_ok _ _ _ E1) as [L F]. now rewrite L, Nat.eqb_refl, F.
  - intros x l Hl w w' t v H. discriminate.
  - intros x w w' t v H. discriminate.
  - intros es _ w w' t v H. discriminate.
  - intros op a IH w w' t v H. cbn [Codegen_Spec.eval] in H. cbn [Codegen_Scope.type_of]. destruct (eval ρ w a) as [[w1 [t1 v1]]| | |] eqn:E; try discriminate. cbn [obind] in H.
    destruct (apply_op op [(t1, v1)]) as [[t2 v2]| | |] eqn:E1; try discriminate. cbn [obind] in H. injection H as <- <- <-. rewrite (IH _ _ _ _ E). exact (apply_op_type _ _ _ _ E1).
  - intros op a b IHa IHb w w' t v H. cbn [Codegen_Spec.eval] in H. cbn [Codegen_Scope.type_of]. destruct (eval ρ w a) as [[w1 [t1 v1]]| | |] eqn:Ea; try discriminate. cbn [obind] in H.
    destruct (eval ρ w1 b) as [[w2 [t2 v2]]| | |] eqn:Eb; try discriminate. cbn [obind] in H. destruct (apply_op op [(t1, v1); (t2, v2)]) as [[t3 v3]| | |] eqn:E1; try discriminate. cbn [obind] in H. injection H as <- <- <-.
    rewrite (IHa _ _ _ _ Ea), (IHb _ _ _ _ Eb). exact (apply_op_type _ _ _ _ E1).
  - intros c a b IHc IHa IHb w w' t v H. cbn [Codegen_Spec.eval] in H. cbn [Codegen_Scope.type_of]. destruct (eval ρ w c) as [[w0 [t0 v0]]| | |] eqn:Ec; try discriminate. cbn [obind] in H.
    destruct (eval ρ w0 a) as [[w1 [t1 v1]]| | |] eqn:Ea; try discriminate. cbn [obind] in H. destruct (eval ρ w1 b) as [[w2 [t2 v2]]| | |] eqn:Eb; try discriminate. cbn [obind] in H.
    rewrite (IHc _ _ _ _ Ec), (IHa _ _ _ _ Ea), (IHb _ _ _ _ Eb). unfold apply_cond in H. cbn [fst] in H. destruct (vty_eqb t0 TBit) eqn:E0; [|discriminate]. cbn [negb] in H. unfold op_type.
    destruct (common [t1; t2]) as [ct|]; [|discriminate]. cbn [typed obind] in H. destruct (result_type llvm19 op_fun OP_CONDITIONAL ct) as [r|]; [|discriminate]. cbn [typed obind] in H.
    destruct (convert_all conv [(t1, v1); (t2, v2)] ct) as [vs| | |] eqn:E1; try discriminate. cbn [obind] in H. apply convert_all_ok in E1. cbn [map fst] in E1. rewrite E1. destruct (oper OP_CONDITIONAL ct (snd (t0, v0) :: vs)); [|discriminate]. cbn in H. injection H as <- <- <-. reflexivity.
Qed.

(** *** Evaluating only what is needed *)
Lemma apply_bits op t1 v1 t2 v2 r : result_type llvm19 op_fun op TBit = Some TBit -> (forall n, result_type llvm19 op_fun op (TNum n) = None) -> apply_op op [(t1, v1); (t2, v2)] = Ret r ->
  t1 = TBit /\ t2 = TBit /\ exists v, oper op TBit [v1; v2] = Some v /\ r = (TBit, v).
Proof.
  intros Rb Rn. unfold Codegen_Spec.apply_op. cbn [map fst]. destruct t1 as [| |n1], t2 as [| |n2]; cbn [common]; try (cbn; discriminate).
  - rewrite vty_eqb_refl. cbn [typed obind]. rewrite Rb. cbn [typed obind convert_all convert]. rewrite vty_eqb_refl. cbn [obind]. destruct (oper op TBit [v1; v2]) as [v|]; [|discriminate]. cbn. intros H. injection H as <-. eauto 6.
  - assert (exists n, (if vty_eqb (TNum n1) (TNum n2) then Some (TNum n1) else option_map TNum (widest [TNum n1; TNum n2])) = Some (TNum n)) as (n & ->) by (destruct (vty_eqb (TNum n1) (TNum n2)); cbn; eauto).
    cbn [typed obind]. rewrite Rn. discriminate.
Qed.
Lemma result_bit op : op = OP_LOGIC_AND \/ op = OP_LOGIC_OR -> (forall t, op_fun op t = None) -> result_type llvm19 op_fun op TBit = Some TBit /\ forall n, result_type llvm19 op_fun op (TNum n) = None.
Proof. intros [ -> | -> ] H; (split; [reflexivity|]); intros n; unfold result_type; rewrite H; destruct n, llvm19; reflexivity. Qed.

Hypothesis and_short : forall a b, truth a = false -> oper OP_LOGIC_AND TBit [a; b] = Some a.
Hypothesis or_short : forall a b, truth a = true -> oper OP_LOGIC_OR TBit [a; b] = Some a.
Hypothesis select_choice : forall t c a b, oper OP_CONDITIONAL t [c; a; b] = Some (if truth c then a else b).
Hypothesis and_bits : forall t, op_fun OP_LOGIC_AND t = None.
Hypothesis or_bits : forall t, op_fun OP_LOGIC_OR t = None.
Lemma lazy_call ρ w f es : eval_lazy ρ w (ECall f es) =
  do! (w, xs) <- evals eval_lazy ρ w es;
      match find_text function_operators f with
      | Some (op, _) => do! r <- apply_op op xs; Ret (w, r)
      | None =>
          do! (ts, rt) <- typed (fsig f);
          do! vs <- convert_each conv xs ts;
          let (w, v) := ext f w vs in Ret (w, (rt, v))
      end.
Proof. reflexivity. Qed.
Lemma lazy_eq ρ e : no_calls e = true -> forall w w' x, eval ρ w e = Ret (w', x) -> w' = w /\ eval_lazy ρ w e = Ret (w, x).
Proof.
  apply (expr_ind2 (fun e => no_calls e = true -> forall w w' x, eval ρ w e = Ret (w', x) -> w' = w /\ eval_lazy ρ w e = Ret (w, x)) (fun _ => True)); auto; clear e.
  - intros b _ w w' x H. injection H as <- <-. auto.
  - intros d ty _ w w' x H. cbn [Codegen_Spec.eval] in H. cbn [Codegen_Scope.eval_lazy Codegen_Spec.eval]. destruct (build_const (d, ty)) as [c| | |]; try discriminate. cbn [obind] in *. injection H as <- <-. auto.
  - intros s _ w w' x H. discriminate.
  - intros y _ w w' x H. cbn [Codegen_Scope.eval_lazy]. assert (w' = w) as ->; [|auto]. cbn [Codegen_Spec.eval] in H. destruct (ρ y) as [[t v]|]; [now injection H|]. destruct (text_eqb y (lit "pi")); [now injection H|]. destruct (text_eqb y (lit "e")); [now injection H|discriminate].
  - intros f es IH N w w' x H. cbn [no_calls] in N. apply andb_true_iff in N as [N1 N2]. rewrite eval_call in H. rewrite lazy_call.
    assert (forall w w' xs, evals eval ρ w es = Ret (w', xs) -> w' = w /\ evals eval_lazy ρ w es = Ret (w, xs)) as El.
    { clear H w w'. induction IH as [|e es He Hes IH]; intros w w' xs H; cbn [evals] in *; [injection H as <- <-; auto|]. cbn [forallb] in N1. apply andb_true_iff in N1 as [N1 N3].
      destruct (eval ρ w e) as [[w1 y]| | |] eqn:E1; try discriminate. cbn [obind] in H. destruct (He N1 _ _ _ E1) as [-> ->]. cbn [obind]. destruct (evals eval ρ w es) as [[w2 ys]| | |] eqn:E2; try discriminate. cbn [obind] in H. injection H as <- <-.
      destruct (IH N3 _ _ _ E2) as [-> ->]. auto. }
    destruct (evals eval ρ w es) as [[w1 xs]| | |] eqn:E; try discriminate. cbn [obind] in H. destruct (El _ _ _ E) as [-> ->]. cbn [obind]. destruct (find_text function_operators f) as [[op k]|]; [|discriminate].
    destruct (apply_op op xs) as [r| | |] eqn:E1; try discriminate. cbn [obind] in *. injection H as <- <-. auto.
  - intros y l Hl N w w' x H. discriminate.
  - intros y N w w' x H. discriminate.
  - intros es _ N w w' x H. discriminate.
  - intros op a IH N w w' x H. cbn [Codegen_Spec.eval] in H. cbn [Codegen_Scope.eval_lazy]. destruct (eval ρ w a) as [[w1 y]| | |] eqn:E; try discriminate. cbn [obind] in H. destruct (IH N _ _ _ E) as [-> ->]. cbn [obind].
    destruct (apply_op op [y]) as [r| | |]; try discriminate. cbn [obind] in *. injection H as <- <-. auto.
  - intros op a b IHa IHb N w w' x H. cbn [no_calls] in N. apply andb_true_iff in N as [N1 N2]. cbn [Codegen_Spec.eval] in H. destruct (eval ρ w a) as [[w1 [t1 v1]]| | |] eqn:Ea; try discriminate. cbn [obind] in H. destruct (IHa N1 _ _ _ Ea) as [-> La].
    destruct (eval ρ w b) as [[w2 [t2 v2]]| | |] eqn:Eb; try discriminate. cbn [obind] in H. destruct (IHb N2 _ _ _ Eb) as [-> Lb]. destruct (apply_op op [(t1, v1); (t2, v2)]) as [r| | |] eqn:E1; try discriminate. cbn [obind] in H. injection H as <- <-. split; [reflexivity|].
    assert (op = OP_LOGIC_AND \/ op = OP_LOGIC_OR \/ (op <> OP_LOGIC_AND /\ op <> OP_LOGIC_OR)) as [ -> | [ -> | [D1 D2] ] ] by (destruct op; auto; right; right; split; discriminate).
    + cbn [Codegen_Scope.eval_lazy]. rewrite La. cbn [obind snd]. destruct (truth v1) eqn:Tv; cbn [negb]. { rewrite Lb. cbn [obind]. now rewrite E1. }
      destruct (result_bit OP_LOGIC_AND (or_introl eq_refl) and_bits) as [Rb Rn]. destruct (apply_bits _ _ _ _ _ _ Rb Rn E1) as (-> & -> & v & Ev & ->). rewrite (and_short _ v2 Tv) in Ev. injection Ev as <-. reflexivity.
    + cbn [Codegen_Scope.eval_lazy]. rewrite La. cbn [obind snd]. destruct (truth v1) eqn:Tv. 2:{ rewrite Lb. cbn [obind]. now rewrite E1. }
      destruct (result_bit OP_LOGIC_OR (or_intror eq_refl) or_bits) as [Rb Rn]. destruct (apply_bits _ _ _ _ _ _ Rb Rn E1) as (-> & -> & v & Ev & ->). rewrite (or_short _ v2 Tv) in Ev. injection Ev as <-. reflexivity.
    + transitivity (do! (w, x) <- eval_lazy ρ w a; do! (w, y) <- eval_lazy ρ w b; do! r <- apply_op op [x; y]; Ret (w, r)); [destruct op; reflexivity || contradiction|]. rewrite La. cbn [obind]. rewrite Lb. cbn [obind]. now rewrite E1.
  - intros c a b IHc IHa IHb N w w' x H. pose proof H as H0. cbn [no_calls] in N. apply andb_true_iff in N as [N N3]. apply andb_true_iff in N as [N1 N2]. cbn [Codegen_Spec.eval] in H.
    destruct (eval ρ w c) as [[w0 [t0 v0]]| | |] eqn:Ec; try discriminate. cbn [obind] in H. destruct (IHc N1 _ _ _ Ec) as [-> Lc].
    destruct (eval ρ w a) as [[w1 [t1 v1]]| | |] eqn:Ea; try discriminate. cbn [obind] in H. destruct (IHa N2 _ _ _ Ea) as [-> La].
    destruct (eval ρ w b) as [[w2 [t2 v2]]| | |] eqn:Eb; try discriminate. cbn [obind] in H. destruct (IHb N3 _ _ _ Eb) as [-> Lb].
    destruct (apply_cond oper conv llvm19 op_fun (t0, v0) (t1, v1) (t2, v2)) as [[t v]| | |] eqn:E1; try discriminate. cbn [obind] in H. injection H as <- <-. split; [reflexivity|].
    cbn [Codegen_Scope.eval_lazy]. rewrite Lc. cbn [obind snd]. rewrite (eval_type _ _ _ _ _ _ H0). cbn [typed obind].
    unfold apply_cond in E1. cbn [fst snd] in E1. destruct (vty_eqb t0 TBit) eqn:E0; [|discriminate]. cbn [negb] in E1. destruct (common [t1; t2]) as [ct|]; [|discriminate]. cbn [typed obind] in E1.
    destruct (result_type llvm19 op_fun OP_CONDITIONAL ct) as [r|] eqn:Er; [|discriminate]. cbn [typed obind convert_all] in E1. unfold result_type in Er. destruct (vty_eqb ct TVoid) eqn:Ev; [discriminate|]. cbn in Er. injection Er as <-.
    destruct (convert conv (t1, v1) ct) as [u1| | |] eqn:C1; try discriminate. cbn [obind] in E1. destruct (convert conv (t2, v2) ct) as [u2| | |] eqn:C2; try discriminate. cbn [obind] in E1. rewrite select_choice in E1. cbn in E1. injection E1 as <- <-.
    destruct (truth v0); [rewrite La|rewrite Lb]; cbn [obind]; [rewrite C1|rewrite C2]; reflexivity.
Qed.
End Results.

(** *** Programs that never read what was not assigned *)
Lemma obind_ub {A B} (e : outcome A) (f : A -> outcome B) : e <> UB -> (forall a, e = Ret a -> f a <> UB) -> obind e f <> UB.
Proof. destruct e; cbn; intros H1 H2; auto; discriminate. Qed.
Section Defined.
Context {V W : Type}.
Variable oper : optok -> vty -> list V -> option V.
Variable conv : vty -> vty -> V -> option V.
Variable ext : text -> W -> list V -> W * V.
Variable konst_val : konst -> V.
Variable truth : V -> bool.
Variable llvm19 : bool.
Variable op_fun : optok -> vty -> option vty.
Variable fsig : text -> option (list vty * vty).
Variable ok : optok -> nat -> bool.
Hypothesis oper_ok : forall op t vs, ok op (length vs) = true -> oper op t vs <> None.
Hypothesis conv_ok : forall a b v, conv a b v <> None.
Notation env := (@env V).
Notation eval := (eval oper conv (total ext) konst_val llvm19 op_fun fsig).
Notation exec_expr := (exec_expr oper conv (total ext) konst_val llvm19 op_fun fsig).
Notation eval_cond := (eval_cond oper conv (total ext) konst_val truth llvm19 op_fun fsig).
Notation apply_op := (apply_op oper conv llvm19 op_fun).

Lemma convert_def x t : convert conv x t <> UB.
Proof. unfold convert. destruct x as [s v]. destruct (vty_eqb s t); [discriminate|]. destruct s, t; try discriminate. pose proof (conv_ok (TNum n) (TNum n0) v). destruct (conv (TNum n) (TNum n0) v); [discriminate|contradiction]. Qed.
Lemma convert_all_def xs t : convert_all conv xs t <> UB /\ forall vs, convert_all conv xs t = Ret vs -> length vs = length xs.
Proof.
  induction xs as [|x xs [IH1 IH2]]; cbn [convert_all]; [split; [discriminate|intros vs H; injection H as <-; reflexivity]|]. split.
  - apply obind_ub; [apply convert_def|]. intros v _. apply obind_ub; [exact IH1|discriminate].
  - intros vs H. destruct (convert conv x t); try discriminate. cbn [obind] in H. destruct (convert_all conv xs t); try discriminate. cbn [obind] in H. injection H as <-. cbn [length]. now rewrite (IH2 _ eq_refl).
Qed.
Lemma convert_each_def xs : forall ts, convert_each conv xs ts <> UB.
Proof. induction xs as [|x xs IH]; intros [|t ts]; cbn [convert_each]; try discriminate. apply obind_ub; [apply convert_def|]. intros v _. apply obind_ub; [apply IH|discriminate]. Qed.
Lemma typed_def {A} (o : option A) : typed o <> UB.
Proof. destruct o; discriminate. Qed.
Lemma apply_op_def op xs : ok op (length xs) = true -> apply_op op xs <> UB.
Proof.
  intros H. unfold Codegen_Spec.apply_op. apply obind_ub; [apply typed_def|]. intros t _. apply obind_ub; [apply typed_def|]. intros r _. destruct (convert_all_def xs t) as [C1 C2]. apply obind_ub; [exact C1|]. intros vs E.
  apply obind_ub; [|discriminate]. specialize (oper_ok op t vs). rewrite (C2 _ E) in oper_ok. specialize (oper_ok H). destruct (oper op t vs); [discriminate|contradiction].
Qed.
Lemma apply_cond_def c a b : ok OP_CONDITIONAL 3 = true -> apply_cond oper conv llvm19 op_fun c a b <> UB.
Proof.
  intros H. unfold apply_cond. destruct (negb (vty_eqb (fst c) TBit)); [discriminate|]. apply obind_ub; [apply typed_def|]. intros t _. apply obind_ub; [apply typed_def|]. intros r _. destruct (convert_all_def [a; b] t) as [C1 C2]. apply obind_ub; [exact C1|]. intros vs E.
  apply obind_ub; [|discriminate]. specialize (oper_ok OP_CONDITIONAL t (snd c :: vs)). cbn [length] in oper_ok. rewrite (C2 _ E) in oper_ok. specialize (oper_ok H). destruct (oper OP_CONDITIONAL t (snd c :: vs)); [discriminate|contradiction].
Qed.
Definition dom (vars : list text) (ρ : env) : Prop := forall x, In x vars -> ρ x <> None.
Lemma bound_app (vars : list text) (a b : list text) : forallb (fun x => member x vars || text_eqb x (lit "pi") || text_eqb x (lit "e")) (a ++ b) = true ->
  forallb (fun x => member x vars || text_eqb x (lit "pi") || text_eqb x (lit "e")) a = true /\ forallb (fun x => member x vars || text_eqb x (lit "pi") || text_eqb x (lit "e")) b = true.
Proof. rewrite forallb_app. apply andb_true_iff. Qed.
Lemma evals_length (ρ : env) es : forall w w' xs, evals eval ρ w es = Ret (w', xs) -> length xs = length es.
Proof.
  induction es as [|e es IH]; intros w w' xs H; cbn [evals] in H; [injection H as <- <-; reflexivity|]. destruct (eval ρ w e) as [[w1 x]| | |]; try discriminate. cbn [obind] in H. destruct (evals eval ρ w1 es) as [[w2 ys]| | |] eqn:E; try discriminate. cbn [obind] in H.
  injection H as <- <-. cbn [length]. now rewrite (IH _ _ _ E).
Qed.
Lemma eval_def vars ρ e : dom vars ρ -> within ok e = true -> bound vars e = true -> forall w, eval ρ w e <> UB.
Proof.
  intros HD. apply (expr_ind2 (fun e => within ok e = true -> bound vars e = true -> forall w, eval ρ w e <> UB) (fun _ => True)); auto; clear e; try (intros; discriminate).
  - intros d ty H _ w. cbn [Codegen_Spec.eval]. cbn [within] in H. destruct (build_const (d, ty)); try discriminate. 
  - intros x _ H w. cbn [Codegen_Spec.eval]. unfold bound in H. cbn [reads forallb] in H. rewrite andb_true_r in H. destruct (ρ x) as [[t v]|] eqn:E; [discriminate|].
    destruct (text_eqb x (lit "pi")); [discriminate|]. destruct (text_eqb x (lit "e")); [discriminate|]. rewrite !orb_false_r in H. apply member_in in H. now apply HD in H.
  - intros f es IH H Hb w. rewrite eval_call. cbn [within] in H. apply andb_true_iff in H as [H1 H2]. unfold bound in Hb. cbn [reads] in Hb. apply obind_ub.
    + clear H2. revert w. induction IH as [|e es He Hes IH]; intros w; cbn [evals]; [discriminate|]. cbn [forallb] in H1. apply andb_true_iff in H1 as [W1 W2]. cbn [flat_map] in Hb. apply bound_app in Hb as [B1 B2].
      apply obind_ub; [apply He; assumption|]. intros [w1 x] _. apply obind_ub; [apply IH; assumption|]. now intros [w2 xs] _.
    + intros [w1 xs] E. destruct (find_text function_operators f) as [[op k]|].
      * apply obind_ub; [|discriminate]. apply apply_op_def. now rewrite (evals_length _ _ _ _ _ E).
      * apply obind_ub; [apply typed_def|]. intros [ts rt] _. apply obind_ub; [apply convert_each_def|]. intros vs _. destruct (ext f w1 vs). discriminate.
  - intros op a IH H Hb w. cbn [Codegen_Spec.eval]. cbn [within] in H. apply andb_true_iff in H as [H1 H2]. apply obind_ub; [now apply IH|]. intros [w1 x] _. apply obind_ub; [now apply apply_op_def|discriminate].
  - intros op a b IHa IHb H Hb w. cbn [Codegen_Spec.eval]. cbn [within] in H. apply andb_true_iff in H as [H H3]. apply andb_true_iff in H as [H1 H2]. unfold bound in Hb. cbn [reads] in Hb. apply bound_app in Hb as [B1 B2].
    apply obind_ub; [now apply IHa|]. intros [w1 x] _. apply obind_ub; [now apply IHb|]. intros [w2 y] _. apply obind_ub; [now apply apply_op_def|discriminate].
  - intros c a b IHc IHa IHb H Hb w. cbn [Codegen_Spec.eval]. cbn [within] in H. apply andb_true_iff in H as [H H4]. apply andb_true_iff in H as [H H3]. apply andb_true_iff in H as [H1 H2]. unfold bound in Hb. cbn [reads] in Hb. apply bound_app in Hb as [B1 B2]. apply bound_app in B2 as [B2 B3].
    apply obind_ub; [now apply IHc|]. intros [w0 z] _. apply obind_ub; [now apply IHa|]. intros [w1 x] _. apply obind_ub; [now apply IHb|]. intros [w2 y] _. apply obind_ub; [now apply apply_cond_def|discriminate].
Qed.
Lemma set_var_dom (ρ : env) x t v y : ρ y <> None -> set_var ρ x t v y <> None.
Proof. unfold set_var. destruct (text_eqb y x); [discriminate|auto]. Qed.
Lemma set_var_here (ρ : env) x t v : set_var ρ x t v x <> None.
Proof. unfold set_var. rewrite text_eqb_refl. discriminate. Qed.
Definition grown (ρ ρ' : env) : Prop := forall x, ρ x <> None -> ρ' x <> None.
Lemma simple_cases e : simple_expr e = true ->
  (exists x a, e = EBin OP_ASSIGN (EDef x) a) \/ (exists x a, e = EBin OP_ASSIGN (EVar x) a) \/
  (exists op op' x a, e = EBin op (EVar x) a /\ find (fun p => optok_eqb (fst p) op) compound = Some (op, op') /\ op <> OP_ASSIGN) \/ pure e = true.
Proof.
  intros Hs. destruct e as [| | | | | | | | |op a b|]; try (right; right; right; cbn [simple_expr] in Hs; apply andb_true_iff in Hs; apply Hs).
  destruct (optok_eqb op OP_ASSIGN) eqn:Ea.
  - apply optok_eqb_eq in Ea. subst op. destruct a as [| | |x| | |x| | | |]; try (cbn [simple_expr] in Hs; apply andb_true_iff in Hs as [Hs _]; discriminate Hs); eauto 6.
  - destruct (existsb (optok_eqb op) (map fst compound)) eqn:Ec.
    + right. right. left. destruct a as [| | |x| | |x| | | |]; try (exfalso; assert (pure (EBin op _ b) && true = true) as Hs' by (destruct op; try discriminate Ea; exact Hs); apply andb_true_iff in Hs' as [Hs' _]; destruct op; discriminate).
      destruct op; try discriminate Ec; do 4 eexists; (split; [reflexivity|split; [reflexivity|discriminate]]).
    + right. right. right. destruct op; try discriminate Ea; try discriminate Ec; destruct a; try (apply andb_true_iff in Hs; apply Hs); exact Hs.
Qed.
Lemma pure_within e : pure e = true -> within_expr ok e = within ok e /\ forall vars, bound_expr vars e = bound vars e.
Proof.
  destruct e as [| | | | | | | | |op a b|]; try (split; reflexivity). intros H. cbn [pure] in H. apply andb_true_iff in H as [H _]. apply andb_true_iff in H as [H _]. destruct op; try discriminate H; split; try intros vars; destruct a; reflexivity.
Qed.
Lemma exec_expr_def vars ρ w e : dom vars ρ -> simple_expr e = true -> within_expr ok e = true -> bound_expr vars e = true ->
  exec_expr ρ w e <> UB /\ forall ρ' w', exec_expr ρ w e = Ret (ρ', w') -> grown ρ ρ' /\ dom (declared (StExpr e)) ρ'.
Proof.
  intros HD Hs Hw Hb. destruct (simple_cases e Hs) as [(x & a & ->)|[(x & a & ->)|[(op & op' & x & a & -> & F & Na)|Hp]]].
  - cbn [within_expr bound_expr] in *. cbn [Codegen_Spec.exec_expr]. split.
    + apply obind_ub; [eapply eval_def; eauto|]. intros [w1 [t v]] _. destruct (vty_eqb t TVoid); discriminate.
    + intros ρ' w' H. destruct (eval ρ w a) as [[w1 [t v]]| | |]; try discriminate. cbn [obind] in H. destruct (vty_eqb t TVoid); [discriminate|]. injection H as <- <-. split; [intros y; apply set_var_dom|]. intros y [<-|[]]. apply set_var_here.
  - cbn [within_expr bound_expr] in *. change (member x vars && bound vars a = true) in Hb. apply andb_true_iff in Hb as [B1 B2]. apply member_in, HD in B1. cbn [Codegen_Spec.exec_expr]. split.
    + apply obind_ub; [eapply eval_def; eauto|]. intros [w1 [t v]] _. destruct (ρ x) as [[tx vx]|]; [|contradiction]. cbn. destruct (vty_eqb tx t); discriminate.
    + intros ρ' w' H. destruct (eval ρ w a) as [[w1 [t v]]| | |]; try discriminate. cbn [obind] in H. destruct (ρ x) as [[tx vx]|]; [|contradiction]. cbn [defined obind] in H. destruct (vty_eqb tx t); [|discriminate]. injection H as <- <-. split; [intros y; apply set_var_dom|intros y []].
  - assert (exec_expr ρ w (EBin op (EVar x) a) = (do! (w, y) <- eval ρ w a; do! (tx, vx) <- defined (ρ x); do! (t, v) <- apply_op op' [(tx, vx); y]; if vty_eqb tx t then Ret (set_var ρ x t v, w) else Err)) as ->.
    { destruct op; try contradiction; cbn in F; try discriminate F; injection F as <-; reflexivity. }
    assert (ok op' 2 = true /\ within ok a = true) as [O1 O2]. { apply andb_true_iff. destruct op; try contradiction; cbn in F; try discriminate F; injection F as <-; exact Hw. }
    assert (member x vars = true /\ bound vars a = true) as [B1 B2]. { apply andb_true_iff. destruct op; try contradiction; cbn in F; try discriminate F; injection F as <-; exact Hb. }
    assert (declared (StExpr (EBin op (EVar x) a)) = []) as -> by (destruct op; reflexivity). apply member_in, HD in B1. destruct (ρ x) as [[tx vx]|] eqn:Ex; [|contradiction]. cbn [defined obind]. split.
    + apply obind_ub; [eapply eval_def; eauto|]. intros [w1 y] _. apply obind_ub; [now apply apply_op_def|]. intros [t v] _. destruct (vty_eqb tx t); discriminate.
    + intros ρ' w' H. destruct (eval ρ w a) as [[w1 y]| | |]; try discriminate. cbn [obind] in H. destruct (apply_op op' [(tx, vx); y]) as [[t v]| | |]; try discriminate. cbn [obind] in H. destruct (vty_eqb tx t); [|discriminate]. injection H as <- <-. split; [intros z; apply set_var_dom|intros z []].
  - destruct (pure_within e Hp) as [Ew Eb]. rewrite Ew in Hw. rewrite Eb in Hb. rewrite exec_expr_pure by assumption. split.
    + apply obind_ub; [eapply eval_def; eauto|]. now intros [w1 x] _.
    + intros ρ' w' H. destruct (eval ρ w e) as [[w1 x]| | |]; try discriminate. cbn [obind] in H. injection H as <- <-. split; [intros y; auto|]. assert (declared (StExpr e) = []) as ->; [|intros y []].
      destruct e as [| | | | | | | | |op a b|]; try reflexivity. cbn [pure] in Hp. apply andb_true_iff in Hp as [H _]. apply andb_true_iff in H as [H _]. destruct op; try discriminate H; reflexivity.
Qed.

Variable ret : vty.
Hypothesis ret_value : ret <> TVoid.
Variable n : nat.
Notation exec := (exec oper conv (total ext) konst_val truth llvm19 op_fun fsig ret n).
Notation execs := (execs oper conv (total ext) konst_val truth llvm19 op_fun fsig ret n).
Lemma eval_cond_def vars ρ w c : dom vars ρ -> within ok c = true -> bound vars c = true -> eval_cond ρ w c <> UB.
Proof. intros HD H1 H2. unfold Codegen_Spec.eval_cond. apply obind_ub; [eapply eval_def; eauto|]. intros [w1 [t v]] _. destruct (vty_eqb t TBit); discriminate. Qed.
Definition GOOD (d : list text) (ρ : env) (r : outcome (signal V * env * W)) : Prop :=
  r <> UB /\ forall g ρ' w', r = Ret (g, ρ', w') -> grown ρ ρ' /\ (g = Next -> dom d ρ') /\ g <> Returned None.
Lemma dom_grown vars ρ ρ' : dom vars ρ -> grown ρ ρ' -> dom vars ρ'.
Proof. intros H1 H2 x Hx. apply H2, H1, Hx. Qed.
Lemma GOOD_pre d ρ ρ1 r : grown ρ ρ1 -> GOOD d ρ1 r -> GOOD d ρ r.
Proof. intros Hg [H1 H2]. split; [assumption|]. intros g ρ' w' E. destruct (H2 _ _ _ E) as (A & B & C). split; [|auto]. intros x Hx. auto. Qed.
Lemma GOOD_bind {A} d ρ (e : outcome A) f : e <> UB -> (forall a, e = Ret a -> GOOD d ρ (f a)) -> GOOD d ρ (obind e f).
Proof. intros H1 H2. destruct e; cbn [obind]; try contradiction; [apply H2; reflexivity| |]; (split; [discriminate|intros; discriminate]). Qed.
Definition DEF (s : st) : Prop := forall vars ρ w, simple s = true -> scoped vars s = true -> within_stmt ok s = true -> valued s = true -> dom vars ρ -> GOOD (declared s) ρ (exec ρ w s).
Lemma DEF_list l : Forall DEF l -> forall vars ρ w, forallb simple l = true -> scoped_list vars l = true -> forallb (within_stmt ok) l = true -> forallb valued l = true -> dom vars ρ -> GOOD [] ρ (execs ρ w l).
Proof.
  induction 1 as [|s l Hs Hl IH]; intros vars ρ w H1 H2 H3 H4 HD.
  - split; [discriminate|]. intros g ρ' w' E. injection E as <- <- <-. split; [intros x; auto|]. split; [intros _ x []|discriminate].
  - cbn [forallb] in H1, H3, H4. change (scoped vars s && scoped_list (declared s ++ vars) l = true) in H2. apply andb_true_iff in H1 as [A1 A2], H2 as [B1 B2], H3 as [C1 C2], H4 as [D1 D2].
    rewrite execs_cons. destruct (Hs vars ρ w A1 B1 C1 D1 HD) as [U Q]. apply GOOD_bind; [exact U|]. intros [[g ρ1] w1] E. destruct (Q _ _ _ E) as (G & N & R).
    destruct g; try (split; [discriminate|intros g' ρ' w' E'; injection E' as <- <- <-; split; [assumption|split; [discriminate|assumption]]]).
    eapply GOOD_pre; [exact G|]. eapply IH; eauto. intros x Hx. apply in_app_or in Hx as [Hx|Hx]; [now apply N|]. apply G, HD, Hx.
Qed.
Lemma DEF_all s : DEF s.
Proof.
  induction s as [e|e|c b IH|c b es el IHb IHes IHel| |] using st_ind2; intros vars ρ w H1 H2 H3 H4 HD.
  - destruct e as [e|]; [|discriminate]. cbn in H2, H3. cbn [Codegen_Spec.exec]. apply GOOD_bind; [eapply eval_def; eauto|]. intros [w1 x] _. apply GOOD_bind; [apply convert_def|]. intros v _. split; [discriminate|].
    intros g ρ' w' E. injection E as <- <- <-. split; [intros y; auto|]. split; [discriminate|]. destruct (vty_eqb ret TVoid) eqn:Ev; [apply vty_eqb_eq in Ev; contradiction|discriminate].
  - cbn [Codegen_Spec.exec]. destruct (exec_expr_def vars ρ w e HD H1 H3 H2) as [U Q]. apply GOOD_bind; [exact U|]. intros [ρ1 w1] E. split; [discriminate|]. intros g ρ' w' E'. injection E' as <- <- <-. destruct (Q _ _ E) as [G N]. split; [assumption|]. split; [auto|discriminate].
  - rewrite exec_while. cbn [simple] in H1. change (bound vars c && scoped_list vars b = true) in H2. cbn [within_stmt] in H3. cbn [valued] in H4. apply andb_true_iff in H1 as [A1 A2], H2 as [B1 B2], H3 as [C1 C2]. change (declared (StWhile c b)) with (@nil text).
    set (k := n) at 2. generalize k. clear k. intros k. revert ρ w HD. induction k as [|k IHk]; intros ρ w HD; [split; discriminate|]. cbn [exec_loop]. apply GOOD_bind; [eapply eval_cond_def; eauto|]. intros [w1 t] _.
    assert (forall g : signal V, g <> Returned None -> GOOD [] ρ (Ret (g, ρ, w1))) as Stop. { intros g Hg. split; [discriminate|]. intros g' ρ' w' E. injection E as <- <- <-. split; [intros y; auto|]. split; [intros _ y []|assumption]. }
    destruct (negb t); [apply Stop; discriminate|]. destruct (DEF_list b IH vars ρ w1 A2 B2 C2 H4 HD) as [U Q]. apply GOOD_bind; [exact U|]. intros [[g ρ1] w2] E. destruct (Q _ _ _ E) as (G & _ & R).
    assert (forall g : signal V, g <> Returned None -> GOOD [] ρ (Ret (g, ρ1, w2))) as Stop2. { intros g' Hg. split; [discriminate|]. intros g'' ρ' w' E'. injection E' as <- <- <-. split; [assumption|]. split; [intros _ y []|assumption]. }
    destruct g; [| | |]; try (eapply GOOD_pre; [exact G|]; apply IHk; eapply dom_grown; eauto); apply Stop2; [discriminate|assumption].
  - rewrite exec_if. cbn [simple] in H1. change (bound vars c && scoped_list vars b && forallb (fun x => match x with (c, b) => bound vars c && scoped_list vars b end) es && match el with Some b => scoped_list vars b | None => true end = true) in H2.
    cbn [within_stmt] in H3. cbn [valued] in H4. apply andb_true_iff in H1 as [H1 A4], H2 as [H2 B4], H3 as [H3 C4], H4 as [H4 D4]. apply andb_true_iff in H1 as [H1 A3], H2 as [H2 B3], H3 as [H3 C3], H4 as [D2 D3]. apply andb_true_iff in H1 as [A1 A2], H2 as [B1 B2], H3 as [C1 C2].
    change (declared (StIf c b es el)) with (@nil text). apply GOOD_bind; [eapply eval_cond_def; eauto|]. intros [w1 t] _. destruct t; [eapply DEF_list; eauto|]. clear IHb A1 A2 B1 B2 C1 C2 D2.
    revert ρ w1 HD. induction IHes as [|[c' b'] es Hb Hes IH]; intros ρ w1 HD; cbn [exec_elifs].
    + unfold exec_else. destruct el as [el|]; [eapply DEF_list; eauto|]. split; [discriminate|]. intros g ρ' w' E. injection E as <- <- <-. split; [intros y; auto|]. split; [intros _ y []|discriminate].
    + cbn [forallb] in A3, B3, C3, D3. apply andb_true_iff in A3 as [A1 A3], B3 as [B1 B3], C3 as [C1 C3], D3 as [D1 D3]. apply andb_true_iff in A1 as [A0 A1], B1 as [B0 B1], C1 as [C0 C1]. apply GOOD_bind; [eapply eval_cond_def; eauto|]. intros [w2 t] _.
      destruct t; [eapply DEF_list; eauto|]. apply IH; auto.
  - split; [discriminate|]. intros g ρ' w' E. injection E as <- <- <-. split; [intros y; auto|]. split; discriminate.
  - split; [discriminate|]. intros g ρ' w' E. injection E as <- <- <-. split; [intros y; auto|]. split; discriminate.
Qed.
Lemma bind_args_dom ps : forall vs (ρ : env), length vs = length ps -> grown ρ (bind_args ps vs ρ) /\ dom (map snd ps) (bind_args ps vs ρ).
Proof.
  induction ps as [|[t x] ps IH]; intros [|v vs] ρ H; try discriminate; cbn [bind_args map snd]; [split; [intros y; auto|intros y []]|]. injection H as H. destruct (IH vs (set_var ρ x t v) H) as [A B]. split.
  - intros y Hy. apply A, set_var_dom, Hy.
  - intros y [<-|Hy]; [apply A, set_var_here|apply B, Hy].
Qed.
Lemma run_body_def params args w body : length args = length params -> forallb simple body = true -> scoped_list (map snd params) body = true -> forallb (within_stmt ok) body = true -> forallb valued body = true -> last_leaves body = true ->
  run_body oper conv (total ext) konst_val truth llvm19 op_fun fsig ret n params args w body <> UB /\
  forall r w', run_body oper conv (total ext) konst_val truth llvm19 op_fun fsig ret n params args w body = Ret (r, w') -> r <> None.
Proof.
  intros Hl H1 H2 H3 H4 H5. unfold run_body. destruct (bind_args_dom params args (fun _ => None) Hl) as [_ HD].
  destruct (DEF_list body ltac:(apply Forall_forall; intros s _; apply DEF_all) _ _ w H1 H2 H3 H4 HD) as [U Q]. pose proof (fun ρ' w' => execs_next' oper conv ext konst_val truth llvm19 op_fun fsig ret n body (bind_args params args (fun _ => None)) w ρ' w') as Nx.
  destruct (execs (bind_args params args (fun _ => None)) w body) as [[[g ρ'] w']| | |]; cbn [obind]; try contradiction; try (split; [discriminate|intros; discriminate]). destruct (Q _ _ _ eq_refl) as (_ & _ & R).
  destruct g as [| | |[v|]]; try contradiction; [rewrite (Nx _ _ eq_refl) in H5; discriminate| | |]; (split; [discriminate|]); try (intros r w'' E; discriminate E). intros r w'' E. injection E as <- <-. discriminate.
Qed.
End Defined.
