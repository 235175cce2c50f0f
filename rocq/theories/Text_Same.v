(** Meaning and types depend only on what the functions that can be called are, not on how they are found. *)
From Coq Require Import Ascii String List Bool Arith ZArith Lia.
Import ListNotations.
From Verif Require Import Base Lexer_Model Op_Model Number_Model Parser_Model Parser_Spec Ir_Model Codegen_Spec Codegen_Scope Codegen_Sim Validate_Spec Validate_Proofs.

Lemma bind_eq {A B} (o o' : outcome A) (f g : A -> outcome B) : o = o' -> (forall x, f x = g x) -> (do! x <- o; f x) = (do! x <- o'; g x).
Proof. intros <- H. destruct o; [apply H|reflexivity..]. Qed.
Section Meaning.
Context {V W : Type}.
Variable oper : optok -> vty -> list V -> option V.
Variable conv : vty -> vty -> V -> option V.
Variable konst_val : konst -> V.
Variable truth : V -> bool.
Variable llvm19 : bool.
Variable op_fun : optok -> vty -> option vty.
Variables fsig fsig' : text -> option (list vty * vty).
Variables p p' : text -> W -> list V -> outcome (W * V).
Hypothesis sigs : forall f, fsig f = fsig' f.
Hypothesis calls : forall f w vs, p f w vs = p' f w vs.
Definition evals p fsig (ρ : env) : W -> list expr -> outcome (W * list (vty * V)) :=
  fix evals w es := match es with
    | [] => Ret (w, [])
    | e :: es' => do! (w, x) <- eval oper conv p konst_val llvm19 op_fun fsig ρ w e; do! (w, xs) <- evals w es'; Ret (w, x :: xs)
    end.
Notation ev q s := (eval oper conv q konst_val llvm19 op_fun s).
Notation xe q s := (exec_expr oper conv q konst_val llvm19 op_fun s).
Notation ec q s := (eval_cond oper conv q konst_val truth llvm19 op_fun s).
Lemma eval_eq ρ e : forall w, ev p fsig ρ w e = ev p' fsig' ρ w e.
Proof.
  induction e as [v|v ty|t|x|f es IH|n ms|op a IH|op a c IHa IHb|c a d IHc IHa IHb|x|es] using expr_ind1; intros w; try reflexivity.
  - change (ev p fsig ρ w (ECall f es)) with (do! (w, xs) <- evals p fsig ρ w es; match find_text function_operators f with
      | Some (op, _) => do! r <- apply_op oper conv llvm19 op_fun op xs; Ret (w, r)
      | None => do! (ts, rt) <- typed (fsig f); do! vs <- convert_each conv xs ts; do! (w, v) <- p f w vs; Ret (w, (rt, v)) end).
    change (ev p' fsig' ρ w (ECall f es)) with (do! (w, xs) <- evals p' fsig' ρ w es; match find_text function_operators f with
      | Some (op, _) => do! r <- apply_op oper conv llvm19 op_fun op xs; Ret (w, r)
      | None => do! (ts, rt) <- typed (fsig' f); do! vs <- convert_each conv xs ts; do! (w, v) <- p' f w vs; Ret (w, (rt, v)) end).
    apply bind_eq.
    + clear f. revert w. induction IH as [|e es He _ IHes]; intros w; [reflexivity|]. cbn [evals]. apply bind_eq; [apply He|]. intros [w1 x]. apply bind_eq; [apply IHes|reflexivity].
    + intros [w1 xs]. destruct (find_text function_operators f) as [[op k]|]; [reflexivity|]. rewrite sigs. apply bind_eq; [reflexivity|]. intros [ts rt]. apply bind_eq; [reflexivity|]. intros vs. now rewrite calls.
  - cbn [eval]. now rewrite IH.
  - cbn [eval]. rewrite IHa. apply bind_eq; [reflexivity|]. intros [w1 x]. now rewrite IHb.
  - cbn [eval]. rewrite IHc. apply bind_eq; [reflexivity|]. intros [w0 z]. rewrite IHa. apply bind_eq; [reflexivity|]. intros [w1 x]. now rewrite IHb.
Qed.
Lemma exec_expr_eq ρ w e : xe p fsig ρ w e = xe p' fsig' ρ w e.
Proof.
  assert (forall e, (do! (w, _) <- ev p fsig ρ w e; Ret (ρ, w)) = (do! (w, _) <- ev p' fsig' ρ w e; Ret (ρ, w))) as D. { intros e0. now rewrite eval_eq. }
  destruct e as [| | | | | | | | |op a c|]; try apply D.
  unfold exec_expr. destruct op; try (destruct (find (fun p => optok_eqb (fst p) _) compound) as [[? ?]|]; [|apply D]; destruct a; try apply D; now rewrite eval_eq).
  destruct a; try (destruct (find (fun p => optok_eqb (fst p) OP_ASSIGN) compound) as [[? ?]|]; apply D); now rewrite eval_eq.
Qed.
Lemma eval_cond_eq ρ w c : ec p fsig ρ w c = ec p' fsig' ρ w c.
Proof. unfold eval_cond. now rewrite eval_eq. Qed.
Variable ret : vty.
Variable n : nat.
Notation ex q s := (exec oper conv q konst_val truth llvm19 op_fun s ret n).
Notation exs q s := (execs oper conv q konst_val truth llvm19 op_fun s ret n).
Definition st_eq (s : st) : Prop := forall ρ w, ex p fsig ρ w s = ex p' fsig' ρ w s.
Lemma execs_eq l : Forall st_eq l -> forall ρ w, exs p fsig ρ w l = exs p' fsig' ρ w l.
Proof.
  induction 1 as [|s l H _ IH]; intros ρ w; [reflexivity|]. cbn [execs]. apply bind_eq; [apply H|]. intros [[g ρ1] w1]. destruct g; [apply IH|reflexivity..].
Qed.
Definition loop p fsig (c : expr) (b : list st) : nat -> env -> W -> outcome (signal V * env * W) :=
  fix loop k ρ w := match k with
    | O => Hang
    | S k => do! (w, t) <- ec p fsig ρ w c;
             if negb t then Ret (Next, ρ, w)
             else do! (g, ρ, w) <- exs p fsig ρ w b;
                  match g with Next | Continued => loop k ρ w | Broke => Ret (Next, ρ, w) | Returned v => Ret (Returned v, ρ, w) end
    end.
Definition elifs p fsig (el : option (list st)) : env -> W -> list (expr * list st) -> outcome (signal V * env * W) :=
  fix elifs ρ w es := match es with
    | [] => match el with Some b => exs p fsig ρ w b | None => Ret (Next, ρ, w) end
    | (c, b) :: es' => do! (w, t) <- ec p fsig ρ w c; if t then exs p fsig ρ w b else elifs ρ w es'
    end.
Lemma exec_eq s : st_eq s.
Proof.
  induction s as [e|e|c d IH|c d es el IHb IHes IHel| |] using st_ind2; intros ρ w; try reflexivity.
  - destruct e as [e|]; [|reflexivity]. cbn [exec]. now rewrite eval_eq.
  - cbn [exec]. now rewrite exec_expr_eq.
  - change (loop p fsig c d n ρ w = loop p' fsig' c d n ρ w). revert ρ w. generalize n. intros k.
    induction k as [|k IHk]; intros ρ w; [reflexivity|]. cbn [loop]. rewrite eval_cond_eq. apply bind_eq; [reflexivity|]. intros [w1 t]. destruct (negb t); [reflexivity|].
    apply bind_eq; [now apply execs_eq|]. intros [[g ρ2] w2]. destruct g; [apply IHk|reflexivity|apply IHk|reflexivity].
  - change ((do! (w, t) <- ec p fsig ρ w c; if t then exs p fsig ρ w d else elifs p fsig el ρ w es) = (do! (w, t) <- ec p' fsig' ρ w c; if t then exs p' fsig' ρ w d else elifs p' fsig' el ρ w es)).
    rewrite eval_cond_eq. apply bind_eq; [reflexivity|]. intros [w1 t]. destruct t; [now apply execs_eq|]. clear w c d IHb. revert w1. induction IHes as [|[c d] es H _ IHe]; intros w.
    + cbn [elifs]. destruct el as [d|]; [now apply execs_eq|reflexivity].
    + cbn [elifs]. rewrite eval_cond_eq. apply bind_eq; [reflexivity|]. intros [w2 t]. destruct t; [now apply execs_eq|]. apply IHe.
Qed.
Lemma run_body_eq params args w body :
  run_body oper conv p konst_val truth llvm19 op_fun fsig ret n params args w body = run_body oper conv p' konst_val truth llvm19 op_fun fsig' ret n params args w body.
Proof. unfold run_body. rewrite execs_eq; [reflexivity|]. apply Forall_forall. intros s _. apply exec_eq. Qed.
End Meaning.

Section Types.
Variable op_fun : optok -> vty -> option vty.
Variables fsig fsig' : text -> option (list vty * vty).
Hypothesis sigs : forall f, fsig f = fsig' f.
Notation ht s := (has_type op_fun s).
Notation te s := (type_expr op_fun s).
Lemma has_type_eq Γ e : ht fsig Γ e = ht fsig' Γ e.
Proof.
  induction e as [v|v ty|t|x|f es IH|n ms|op a IH|op a c IHa IHb|c a d IHc IHa IHb|x|es] using expr_ind1; try reflexivity.
  - cbn [has_type]. rewrite sigs. assert (map (ht fsig Γ) es = map (ht fsig' Γ) es) as -> by (induction IH; cbn [map]; congruence). reflexivity.
  - cbn [has_type]. now rewrite IH.
  - cbn [has_type]. now rewrite IHa, IHb.
  - cbn [has_type]. now rewrite IHc, IHa, IHb.
Qed.
Lemma type_expr_eq Γ e : te fsig Γ e = te fsig' Γ e.
Proof.
  destruct e as [| | | | | | | | |op a c|]; try (unfold type_expr; now rewrite has_type_eq). unfold type_expr. destruct op, a; rewrite ?has_type_eq; try reflexivity;
    destruct (find _ compound) as [[? ?]|]; try reflexivity; now rewrite has_type_eq.
Qed.
Variable ret : vty.
Notation ts s := (type_stmt (ht s) (te s) ret).
Notation tl s := (type_list (ht s) (te s) ret).
Lemma is_bool_eq Γ c : is_bool (ht fsig) Γ c = is_bool (ht fsig') Γ c.
Proof. unfold is_bool. now rewrite has_type_eq. Qed.
Lemma list_eq l : Forall (fun s => forall b Γ, ts fsig b Γ s = ts fsig' b Γ s) l -> forall b Γ, tl fsig b Γ l = tl fsig' b Γ l.
Proof. induction 1 as [|s l H _ IH]; intros b Γ; [reflexivity|]. cbn [type_list]. rewrite H. destruct (ts fsig' b Γ s); [apply IH|reflexivity]. Qed.
Definition type_elifs s (b : bool) : ctx -> list (expr * list st) -> option ctx :=
  fix elifs Γ es := match es with
    | [] => Some Γ
    | (c, d) :: es' => if is_bool (ht s) Γ c then match tl s b Γ d with Some Γ => elifs Γ es' | None => None end else None
    end.
Lemma type_stmt_eq s : forall b Γ, ts fsig b Γ s = ts fsig' b Γ s.
Proof.
  induction s as [e|e|c d IH|c d es el IHb IHes IHel| |] using st_ind2; intros b Γ; try reflexivity.
  - destruct e as [e|]; [|reflexivity]. cbn [type_stmt]. now rewrite has_type_eq.
  - cbn [type_stmt]. apply type_expr_eq.
  - change ((if is_bool (ht fsig) Γ c then tl fsig true Γ d else None) = (if is_bool (ht fsig') Γ c then tl fsig' true Γ d else None)). now rewrite is_bool_eq, (list_eq d IH).
  - change ((if is_bool (ht fsig) Γ c then match tl fsig b Γ d with None => None | Some Γ => match type_elifs fsig b Γ es with None => None | Some Γ => match el with Some d => tl fsig b Γ d | None => Some Γ end end end else None) =
            (if is_bool (ht fsig') Γ c then match tl fsig' b Γ d with None => None | Some Γ => match type_elifs fsig' b Γ es with None => None | Some Γ => match el with Some d => tl fsig' b Γ d | None => Some Γ end end end else None)).
    rewrite is_bool_eq, (list_eq d IHb). destruct (is_bool (ht fsig') Γ c); [|reflexivity]. destruct (tl fsig' b Γ d) as [Γ1|]; [|reflexivity].
    assert (forall Γ, type_elifs fsig b Γ es = type_elifs fsig' b Γ es) as ->.
    { clear - sigs IHes. induction IHes as [|[c d] es H _ IH]; intros Γ; [reflexivity|]. cbn [type_elifs]. rewrite is_bool_eq, (list_eq d H). destruct (is_bool (ht fsig') Γ c); [|reflexivity]. destruct (tl fsig' b Γ d); [apply IH|reflexivity]. }
    destruct (type_elifs fsig' b Γ1 es); [|reflexivity]. destruct el as [d'|]; [apply (list_eq d' IHel)|reflexivity].
Qed.
Lemma well_typed_eq ps body : well_typed op_fun fsig ret ps body <-> well_typed op_fun fsig' ret ps body.
Proof. unfold well_typed. rewrite (list_eq body); [reflexivity|]. apply Forall_forall. intros s _. apply type_stmt_eq. Qed.
End Types.
