From Coq Require Import Ascii String List Bool Arith ZArith Lia.
Import ListNotations.
From Verif Require Import Base Lexer_Model Lexer_Proofs Op_Model Number_Model Parser_Model Ir_Model Codegen_Model Codegen_Lemmas Codegen_Shape Validate_Model Session_Model Session_Spec.

(** *** The checks and the functions that can be called *)
Section Congruence.
Variable op_fun : optok -> vty -> option vty.
Variables f g : text -> option (list vty * vty).
Hypothesis same : forall x, f x = g x.
Lemma args_same l : Forall (fun o => forall Γ, validate op_fun f o Γ = validate op_fun g o Γ) l -> forall Γ, validate_args (validate op_fun f) l Γ = validate_args (validate op_fun g) l Γ.
Proof.
  induction 1 as [|o l H _ IH]; intros Γ; cbn [validate_args]; [reflexivity|]. rewrite H. destruct (validate op_fun g o Γ) as [[x Γ1]| | |]; cbn [obind]; [|reflexivity..]. now rewrite IH.
Qed.
Lemma rest_same r : Forall (fun x => forall Γ, validate op_fun f (snd x) Γ = validate op_fun g (snd x) Γ) r -> forall l Γ, validate_rest (validate op_fun f) l r Γ = validate_rest (validate op_fun g) l r Γ.
Proof.
  induction 1 as [|[op o] r H _ IH]; intros l Γ; cbn [validate_rest]; [reflexivity|]. cbn [snd] in H. rewrite H. destruct (validate op_fun g o Γ) as [[x Γ1]| | |]; cbn [obind]; [|reflexivity..]. destruct (check_binary op l x Γ1) as [[y Γ2]| | |]; cbn [obind]; [apply IH|reflexivity..].
Qed.
Lemma validate_same o : forall Γ, validate op_fun f o Γ = validate op_fun g o Γ.
Proof.
  induction o as [| | | | |n p|n l p IH|c a b IHc IHa IHb|l r p IHl IHr|op x p IH| |] using operand_ind2; intros Γ; try reflexivity; cbn [validate].
  - now rewrite same.
  - rewrite (args_same l IH), same. reflexivity.
  - rewrite IHc. destruct (validate op_fun g c Γ) as [[x Γ1]| | |]; cbn [obind]; [|reflexivity..]. rewrite IHa. destruct (validate op_fun g a Γ1) as [[y Γ2]| | |]; cbn [obind]; [|reflexivity..]. now rewrite IHb.
  - rewrite IHl. destruct (validate op_fun g l Γ) as [[x Γ1]| | |]; cbn [obind]; [|reflexivity..]. now apply rest_same.
  - now rewrite IH.
Qed.
Variable ret : vty.
Notation vsf := (validate_stmt op_fun f ret). Notation vsg := (validate_stmt op_fun g ret).
Lemma list_same l : Forall (fun s => forall b Γ, vsf b s Γ = vsg b s Γ) l -> forall b Γ, validate_list vsf b l Γ = validate_list vsg b l Γ.
Proof.
  induction 1 as [|s l H _ IH]; intros b Γ; [reflexivity|]. change (validate_list vsf b (s :: l) Γ) with (do! Γ <- vsf b s Γ; validate_list vsf b l Γ). change (validate_list vsg b (s :: l) Γ) with (do! Γ <- vsg b s Γ; validate_list vsg b l Γ).
  rewrite H. destruct (vsg b s Γ); cbn [obind]; [apply IH|reflexivity..].
Qed.
Lemma choice_same b c l Γ : (forall Γ, validate_list vsf b l Γ = validate_list vsg b l Γ) -> validate_choice op_fun f (validate_list vsf b) c l Γ = validate_choice op_fun g (validate_list vsg b) c l Γ.
Proof. intros H. unfold validate_choice. rewrite validate_same. destruct (validate op_fun g c Γ) as [[x Γ1]| | |]; cbn [obind]; [|reflexivity..]. now rewrite H. Qed.
Lemma stmt_same s : forall b Γ, vsf b s Γ = vsg b s Γ.
Proof.
  induction s as [e|e|c l IH|c l es el IH IHes IHel| |] using stmt_ind2; intros b Γ; cbn [validate_stmt]; try reflexivity.
  - destruct e; [now rewrite validate_same|reflexivity].
  - now rewrite validate_same.
  - apply choice_same. apply (list_same l IH).
  - rewrite (choice_same b c l Γ (list_same l IH b)). destruct (validate_choice op_fun g (validate_list vsg b) c l Γ) as [Γ1| | |]; cbn [obind]; [|reflexivity..].
    assert (forall Γ, validate_elifs op_fun f (validate_list vsf b) es Γ = validate_elifs op_fun g (validate_list vsg b) es Γ) as E.
    { clear - IHes same. induction IHes as [|[c l] es H _ IH]; intros Γ; [reflexivity|]. change (validate_elifs op_fun f (validate_list vsf b) ((c, l) :: es) Γ) with (do! Γ <- validate_choice op_fun f (validate_list vsf b) c l Γ; validate_elifs op_fun f (validate_list vsf b) es Γ).
      change (validate_elifs op_fun g (validate_list vsg b) ((c, l) :: es) Γ) with (do! Γ <- validate_choice op_fun g (validate_list vsg b) c l Γ; validate_elifs op_fun g (validate_list vsg b) es Γ).
      rewrite (choice_same b c l Γ (list_same l H b)). destruct (validate_choice op_fun g (validate_list vsg b) c l Γ); cbn [obind]; [apply IH|reflexivity..]. }
    rewrite E. destruct (validate_elifs op_fun g (validate_list vsg b) es Γ1); cbn [obind]; [|reflexivity..]. destruct el; [apply (list_same l0 IHel)|reflexivity].
Qed.
Lemma stmts_same b l Γ : validate_stmts op_fun f ret b l Γ = validate_stmts op_fun g ret b l Γ.
Proof. apply list_same, (proj2 (Forall_forall _ l)). intros s _. apply stmt_same. Qed.
End Congruence.

(** *** The library functions that are recorded *)
Section Ops.
Variable op_fun : optok -> vty -> option vty.
Variable f : text -> option (list vty * vty).
Definition no_ops (l : list text) : Prop := forall n, In n l -> builtin_op n = None.
Lemma no_ops_app l m : no_ops (l ++ m) -> no_ops l /\ no_ops m.
Proof. intros H; split; intros n I; apply H, in_or_app; auto. Qed.
Definition keeps {A} (o : outcome (A * fctx)) (Γ : fctx) : Prop := forall x Γ', o = Ret (x, Γ') -> snd Γ' = snd Γ.
Lemma args_keep l : Forall (fun o => no_ops (callees o) -> forall Γ, keeps (validate op_fun f o Γ) Γ) l -> no_ops (flat_map callees l) -> forall Γ, keeps (validate_args (validate op_fun f) l Γ) Γ.
Proof.
  induction 1 as [|o l H _ IH]; intros N Γ x Γ' E; cbn [validate_args flat_map] in *; [now injection E as _ <-|]. apply no_ops_app in N as [N1 N2].
  destruct (validate op_fun f o Γ) as [[y Γ1]| | |] eqn:E1; try discriminate E. cbn [obind] in E. destruct (validate_args (validate op_fun f) l Γ1) as [[ts Γ2]| | |] eqn:E2; try discriminate E. injection E as _ <-.
  rewrite (IH N2 Γ1 _ _ E2). exact (H N1 Γ _ _ E1).
Qed.
Lemma binary_keep op l r Γ : keeps (check_binary op l r Γ) Γ.
Proof.
  intros x Γ' E. unfold check_binary in E. destruct (unify op l (fst r)) as [[a b]| | |]; try discriminate E. cbn [obind] in E.
  destruct op; try discriminate E; repeat match type of E with (if ?c then _ else _) = _ => destruct c; try discriminate E end; injection E as _ <-; try reflexivity. now destruct (snd l).
Qed.
Lemma rest_keep r : Forall (fun x => no_ops (callees (snd x)) -> forall Γ, keeps (validate op_fun f (snd x) Γ) Γ) r -> no_ops (flat_map (fun x => match x with (_, y) => callees y end) r) -> forall l Γ, keeps (validate_rest (validate op_fun f) l r Γ) Γ.
Proof.
  induction 1 as [|[op o] r H _ IH]; intros N l Γ x Γ' E; cbn [validate_rest flat_map] in *; [now injection E as _ <-|]. apply no_ops_app in N as [N1 N2]. cbn [snd] in H.
  destruct (validate op_fun f o Γ) as [[y Γ1]| | |] eqn:E1; try discriminate E. cbn [obind] in E. destruct (check_binary op l y Γ1) as [[z Γ2]| | |] eqn:E2; try discriminate E. cbn [obind] in E.
  rewrite (IH N2 _ _ _ _ E), (binary_keep _ _ _ _ _ _ E2). exact (H N1 _ _ _ E1).
Qed.
Lemma validate_keep o : no_ops (callees o) -> forall Γ, keeps (validate op_fun f o Γ) Γ.
Proof.
  induction o as [| | | |n p|n p|n l p IH|c a b IHc IHa IHb|l r p IHl IHr|op x p IH| |] using operand_ind2; intros N Γ y Γ' E; cbn [validate] in E; try discriminate E; try (now injection E as _ <-).
  - destruct (number_type v ty); try discriminate E. now injection E as _ <-.
  - destruct (var_tag n (fst Γ)); try discriminate E. now injection E as _ <-.
  - rewrite (N n (or_introl eq_refl)) in E. destruct (other_name n); [discriminate E|]. destruct (f n) as [[ps rt]|]; [|discriminate E]. cbn [obind] in E. destruct (check_args [] ps); [|discriminate E]. now injection E as _ <-.
  - rewrite (N n (or_introl eq_refl)) in E. destruct (other_name n); [discriminate E|]. destruct (f n) as [[ps rt]|]; [|discriminate E]. destruct (validate_args (validate op_fun f) l Γ) as [[ts Γ1]| | |] eqn:E1; try discriminate E. cbn [obind] in E. destruct (check_args ts ps); [|discriminate E]. injection E as _ <-.
    refine (args_keep l IH _ Γ _ _ E1). intros m I. apply N. cbn [callees]. now right.
  - cbn [callees] in N. apply no_ops_app in N as [N1 N]. apply no_ops_app in N as [N2 N3]. destruct (validate op_fun f c Γ) as [[x1 Γ1]| | |] eqn:E1; try discriminate E. cbn [obind] in E. destruct (validate op_fun f a Γ1) as [[x2 Γ2]| | |] eqn:E2; try discriminate E. cbn [obind] in E. destruct (validate op_fun f b Γ2) as [[x3 Γ3]| | |] eqn:E3; try discriminate E. cbn [obind] in E.
    destruct (check_select _ _ _); try discriminate E. injection E as _ <-. rewrite (IHb N3 _ _ _ E3), (IHa N2 _ _ _ E2). exact (IHc N1 _ _ _ E1).
  - cbn [callees] in N. apply no_ops_app in N as [N1 N2]. destruct (validate op_fun f l Γ) as [[x1 Γ1]| | |] eqn:E1; try discriminate E. cbn [obind] in E. rewrite (rest_keep r IHr N2 _ _ _ _ E). exact (IHl N1 _ _ _ E1).
  - destruct (validate op_fun f x Γ) as [[x1 Γ1]| | |] eqn:E1; try discriminate E. cbn [obind] in E. specialize (IH N Γ _ _ E1). destruct op as [op|]; [|now injection E as _ <-]. destruct (check_unary op x1); try discriminate E. now injection E as _ <-.
  - destruct (fresh n (fst Γ)); [|discriminate E]. now injection E as _ <-.
Qed.
Variable ret : vty.
Notation vs := (validate_stmt op_fun f ret).
Definition keeps1 (o : outcome fctx) (Γ : fctx) : Prop := forall Γ', o = Ret Γ' -> snd Γ' = snd Γ.
Lemma list_keep l : Forall (fun s => no_ops (callees_stmt s) -> forall b Γ, keeps1 (vs b s Γ) Γ) l -> no_ops (flat_map callees_stmt l) -> forall b Γ, keeps1 (validate_list vs b l Γ) Γ.
Proof.
  induction 1 as [|s l H _ IH]; intros N b Γ Γ' E; [now injection E as <-|]. change (validate_list vs b (s :: l) Γ) with (do! Γ <- vs b s Γ; validate_list vs b l Γ) in E. cbn [flat_map] in N. apply no_ops_app in N as [N1 N2].
  destruct (vs b s Γ) as [Γ1| | |] eqn:E1; try discriminate E. cbn [obind] in E. rewrite (IH N2 b Γ1 _ E). exact (H N1 b Γ _ E1).
Qed.
Lemma choice_keep b c l Γ : no_ops (callees c) -> (forall Γ, keeps1 (validate_list vs b l Γ) Γ) -> keeps1 (validate_choice op_fun f (validate_list vs b) c l Γ) Γ.
Proof.
  intros N H Γ' E. unfold validate_choice in E. destruct (validate op_fun f c Γ) as [[x Γ1]| | |] eqn:E1; try discriminate E. cbn [obind] in E. destruct (vty_eqb (fst x) TBit); [|discriminate E]. rewrite (H _ _ E). exact (validate_keep c N Γ _ _ E1).
Qed.
Lemma stmt_keep s : no_ops (callees_stmt s) -> forall b Γ, keeps1 (vs b s Γ) Γ.
Proof.
  induction s as [e|e|c l IH|c l es el IH IHes IHel| |] using stmt_ind2; intros N b Γ Γ' E; cbn [validate_stmt callees_stmt] in *.
  - destruct e as [e|]; [|now injection E as <-]. destruct (validate op_fun f e Γ) as [[x Γ1]| | |] eqn:E1; try discriminate E. cbn [obind] in E. destruct (cast_ok (fst x) ret); [|discriminate E]. injection E as <-. exact (validate_keep e N Γ _ _ E1).
  - destruct (validate op_fun f e Γ) as [[x Γ1]| | |] eqn:E1; try discriminate E. cbn [obind] in E. injection E as <-. exact (validate_keep e N Γ _ _ E1).
  - apply no_ops_app in N as [N1 N2]. exact (choice_keep true c l Γ N1 (list_keep l IH N2 true) _ E).
  - apply no_ops_app in N as [N1 N]. apply no_ops_app in N as [N2 N]. apply no_ops_app in N as [N3 N4].
    destruct (validate_choice op_fun f (validate_list vs b) c l Γ) as [Γ1| | |] eqn:E1; try discriminate E. cbn [obind] in E. destruct (validate_elifs op_fun f (validate_list vs b) es Γ1) as [Γ2| | |] eqn:E2; try discriminate E. cbn [obind] in E.
    assert (snd Γ' = snd Γ2) as ->. { destruct el; [exact (list_keep l0 IHel N4 b Γ2 _ E)|now injection E as <-]. }
    rewrite <- (choice_keep b c l Γ N1 (list_keep l IH N2 b) _ E1). clear - IHes N3 E2. revert Γ1 Γ2 E2.
    induction IHes as [|[c l] es H _ IH]; intros Γ Γ' E; [now injection E as <-|]. change (validate_elifs op_fun f (validate_list vs b) ((c, l) :: es) Γ) with (do! Γ <- validate_choice op_fun f (validate_list vs b) c l Γ; validate_elifs op_fun f (validate_list vs b) es Γ) in E.
    cbn [flat_map] in N3. apply no_ops_app in N3 as [N1 N3]. apply no_ops_app in N1 as [N1 N2]. destruct (validate_choice op_fun f (validate_list vs b) c l Γ) as [Γ1| | |] eqn:E1; try discriminate E. cbn [obind] in E. rewrite (IH N3 _ _ E). exact (choice_keep b c l Γ N1 (list_keep l H N2 b) _ E1).
  - destruct b; [now injection E as <-|discriminate E].
  - destruct b; [now injection E as <-|discriminate E].
Qed.
Lemma stmts_keep b l Γ : no_ops (flat_map callees_stmt l) -> keeps1 (validate_stmts op_fun f ret b l Γ) Γ.
Proof. intros N. apply list_keep; [|exact N]. apply (proj2 (Forall_forall _ l)). intros s _. apply stmt_keep. Qed.
End Ops.
Lemma params_keep ps : forall Γ Γ', validate_params ps Γ = Ret Γ' -> snd Γ' = snd Γ.
Proof.
  induction ps as [|[t x] ps IH]; intros Γ Γ' E; cbn [validate_params] in E; [now injection E as <-|]. destruct (fresh x (fst Γ)); [|discriminate E]. now rewrite (IH _ _ E).
Qed.

(** *** Sessions *)
Lemma get_put i c s : get_context i (put_context i c s) = c.
Proof. unfold get_context, put_context. cbn [contexts]. generalize (contexts s). induction i as [|i IH]; intros [|x l]; cbn [set_nth nth]; auto. Qed.
Lemma nth_nil {A} i (d : A) : nth i [] d = d. Proof. now destruct i. Qed.
Lemma get_put_other i j c s : i <> j -> get_context i (put_context j c s) = get_context i s.
Proof.
  unfold get_context, put_context. cbn [contexts]. generalize (contexts s). revert i. induction j as [|j IH]; intros [|i] [|x l] N; cbn [set_nth nth]; try congruence; try (rewrite IH by lia); try reflexivity; now destruct i.
Qed.
Lemma called_callees o : incl (called o) (callees o).
Proof.
  assert (forall l, Forall (fun o => incl (called o) (callees o)) l -> incl (flat_map called l) (flat_map callees l)) as L.
  { induction 1 as [|q l H _ IH]; intros n I; [contradiction|]. cbn [flat_map] in *. apply in_app_or in I as [I|I]; apply in_or_app; auto. }
  induction o as [| | | |n p|n p|n l p IH|c a b IHc IHa IHb|l r p IHl IHr|op x p IH| |] using operand_ind2; cbn [called callees]; try (intros m I; exact I).
  - rewrite app_nil_r. destruct (builtin_op n); [intros m []|apply incl_refl].
  - intros m I. apply in_app_or in I as [I|I]; [destruct (builtin_op n); [contradiction|destruct I as [<-|[]]; now left]|right; now apply (L l IH)].
  - intros m I. rewrite !in_app_iff in *. destruct I as [I|[I|I]]; auto.
  - intros m I. rewrite in_app_iff in *. destruct I as [I|I]; [left; auto|right]. clear - I IHr. induction IHr as [|[op o] r H _ IH]; [exact I|]. cbn [flat_map] in *. rewrite in_app_iff in *. destruct I as [I|I]; [left; now apply H|right; auto].
  - exact IH.
Qed.
Lemma called_list l : Forall (fun s => incl (called_stmt s) (callees_stmt s)) l -> incl (flat_map called_stmt l) (flat_map callees_stmt l).
Proof. induction 1 as [|o l H _ IH]; intros n I; [contradiction|]. cbn [flat_map] in *. apply in_app_or in I as [I|I]; apply in_or_app; auto. Qed.
Lemma called_callees_stmt s : incl (called_stmt s) (callees_stmt s).
Proof.
  induction s as [e|e|c l IH|c l es el IH IHes IHel| |] using stmt_ind2; cbn [called_stmt callees_stmt]; try (intros m I; exact I).
  - destruct e; [apply called_callees|intros m I; exact I].
  - apply called_callees.
  - intros m I. rewrite in_app_iff in *. destruct I as [I|I]; [left; now apply called_callees|right; now apply (called_list l IH)].
  - intros m I. rewrite !in_app_iff in *. destruct I as [I|[I|[I|I]]].
    + left. now apply called_callees.
    + right; left. now apply (called_list l IH).
    + right; right; left. clear - I IHes. induction IHes as [|[c l] es H _ IH]; [exact I|]. cbn [flat_map] in *. rewrite !in_app_iff in *. destruct I as [[I|I]|I]; [left; left; now apply called_callees|left; right; now apply (called_list l H)|right; auto].
    + right; right; right. destruct el; [now apply (called_list l0 IHel)|exact I].
Qed.
Lemma called_body l : incl (flat_map called_stmt l) (flat_map callees_stmt l).
Proof. apply called_list, (proj2 (Forall_forall _ l)). intros s _. apply called_callees_stmt. Qed.
Section Requests.
Variable llvm19 : bool.
Variable op_fun : optok -> vty -> option vty.
Variable reg : text -> option (list vty * vty).
Variable is_type : text -> bool.
Variable type_named : text -> option vty.
Notation answer := (answer llvm19 op_fun reg is_type type_named).
Notation serve := (serve llvm19 op_fun reg is_type type_named).
Notation parse_source := (parse_source is_type type_named).
Lemma answer_cursor r s : answer r s = answer r (Session [] (cursor s)).
Proof. destruct r; reflexivity. Qed.
Lemma check_cursor u s s' : check_function op_fun reg u s = Ret s' -> cursor s' = cursor s.
Proof.
  unfold check_function. destruct (validate_params (u_params u) (current s)) as [Γ| | |]; try discriminate. cbn [obind]. destruct (validate_stmts op_fun (check_sig reg s) (return_type s) false (u_body u) Γ); try discriminate. cbn [obind]. intros H. now injection H as <-.
Qed.
Lemma one_cursor t s : cursor (snd (compile_one llvm19 op_fun reg is_type type_named t s)) = cursor s.
Proof.
  unfold compile_one. destruct (parse_function_ast is_type type_named t) as [u| | |]; try reflexivity. destruct (check_function op_fun reg (udf_of u) (set_desc (udf_of u) 0 (clear s))) eqn:E; try reflexivity. cbn [snd]. now rewrite (check_cursor _ _ _ E).
Qed.
Lemma expression_cursor ret ps t s : cursor (snd (compile_expression llvm19 op_fun reg is_type ret ps t s)) = cursor s.
Proof.
  unfold compile_expression. destruct (add_arguments _ _) as [Γ|]; try reflexivity. destruct (parse_expression_ast is_type t) as [o| | |]; try reflexivity. destruct (validate _ _ _ _) as [[x Γ']| | |]; reflexivity.
Qed.
Lemma source_cursor t s : cursor s = 0 -> (forall us, parse_source t = Ret us -> length us <= 1) -> cursor (snd (compile_source llvm19 op_fun reg is_type type_named t s)) = 0.
Proof.
  intros C H. unfold compile_source. destruct (parse_source t) as [us| | |] eqn:E; try exact C. specialize (H us eq_refl). destruct us as [|u [|v us]]; [exact C| |cbn [length] in H; lia].
  cbn [check_functions]. destruct (check_function op_fun reg u (set_desc u 0 (set_cursor 0 (clear s)))) as [s1| | |] eqn:E1; try reflexivity. cbn [existsb snd]. now rewrite (check_cursor _ _ _ E1).
Qed.
Definition single (r : request) : Prop := match r with CompileSource t => forall us, parse_source t = Ret us -> length us <= 1 | _ => True end.
Lemma answer_zero r s : single r -> cursor s = 0 -> cursor (snd (answer r s)) = 0.
Proof.
  intros S C. destruct r; cbn [Session_Model.answer].
  - now rewrite one_cursor.
  - now apply source_cursor.
  - now rewrite expression_cursor.
Qed.
Lemma serve_zero h : forall s s', Forall single h -> cursor s = 0 -> serve h s = Ret s' -> cursor s' = 0.
Proof.
  induction h as [|r h IH]; intros s s' F C E; cbn [Session_Model.serve] in E; [now injection E as <-|]. inversion F as [|? ? S F']; subst. pose proof (answer_zero r s S C) as Z. destruct (answer r s) as [[| | |] s1]; try discriminate E; now apply (IH s1).
Qed.
(** What a compiler answers depends on its history only through sources with several functions. *)
Lemma independent h s r : Forall single h -> serve h new_session = Ret s -> answer r s = answer r new_session.
Proof. intros F E. rewrite answer_cursor, (serve_zero h new_session s F eq_refl E). reflexivity. Qed.
Lemma source_independent t s : fst (answer (CompileSource t) s) = fst (answer (CompileSource t) new_session).
Proof.
  cbn [Session_Model.answer]. unfold compile_source. destruct (parse_source t) as [us| | |]; try reflexivity. destruct us as [|u us]; reflexivity.
Qed.

(** *** Functions that call no others *)
Definition described (u : udf) (k : nat) : session := set_desc u 0 (Session [] k).
Lemma described_get u k i : get_context i (described u k) = if i =? 0 then Fcontext [] [] [] (Some (desc_of u)) else no_context.
Proof. destruct i as [|[|i]]; reflexivity. Qed.
Lemma local_first s d : c_desc (get_context 0 s) = Some d -> (forall i, i <> 0 -> c_desc (get_context i s) = None) -> forall x, local_desc s x = if text_eqb (fst d) x then Some (snd d) else None.
Proof.
  intros D N x. unfold local_desc. change (seq 0 (S (cursor s))) with (0 :: seq 1 (cursor s)). cbn [map find]. rewrite D. destruct d as [g sg]. cbn [fst snd]. destruct (text_eqb g x); [now rewrite D|].
  match goal with |- context [find ?p ?l] => assert (find p l = None) as -> end; [|reflexivity].
  generalize (cursor s). intros n. assert (1 <> 0) as O by discriminate. revert O. generalize 1. induction n as [|n IH]; intros i Hi; [reflexivity|]. cbn [seq map find]. rewrite (N i Hi). apply IH. discriminate.
Qed.
Lemma described_local u k x : local_desc (described u k) x = local_desc (described u 0) x.
Proof.
  rewrite !(local_first _ (desc_of u)); try reflexivity; intros i Hi; rewrite described_get; apply Nat.eqb_neq in Hi; now rewrite Hi.
Qed.
Lemma alone t f k : parse_function_ast is_type type_named t = Ret f ->
  (forall n, In n (flat_map callees_stmt (f_body f)) -> n = f_name f) -> builtin_op (f_name f) = None ->
  fst (answer (CompileFunction t) (Session [] k)) = fst (answer (CompileFunction t) new_session).
Proof.
  intros P O B. cbn [Session_Model.answer]. unfold compile_one. rewrite P. change (set_desc (udf_of f) 0 (clear (Session [] k))) with (described (udf_of f) k). change (set_desc (udf_of f) 0 (clear new_session)) with (described (udf_of f) 0).
  set (u := udf_of f) in *. assert (forall i, check_function op_fun reg u (described u i) = do! Γ <- validate_params (u_params u) ([], []); do! Γ <- validate_stmts op_fun (check_sig reg (described u 0)) (u_ret u) false (u_body u) Γ; Ret (record Γ (flat_map called_stmt (u_body u)) (described u i))) as C.
  { intros i. unfold check_function, current. change (cursor (described u i)) with i. rewrite described_get. replace (c_vars _, c_ops _) with (@nil (text * vty), @nil (optok * vty)) by now destruct (i =? 0).
    destruct (validate_params (u_params u) ([], [])) as [Γ| | |]; try reflexivity. cbn [obind]. rewrite (stmts_same op_fun (check_sig reg (described u i)) (check_sig reg (described u 0))); [reflexivity|]. intros x. unfold check_sig. now rewrite described_local. }
  rewrite !C. clear C. destruct (validate_params (u_params u) ([], [])) as [Γ| | |] eqn:E1; try reflexivity. cbn [obind]. destruct (validate_stmts op_fun (check_sig reg (described u 0)) (u_ret u) false (u_body u) Γ) as [Γ1| | |] eqn:E2; try reflexivity. cbn [obind fst].
  assert (snd Γ1 = []) as N1.
  { rewrite (stmts_keep op_fun _ _ _ _ _) with (2 := E2); [exact (params_keep _ _ _ E1)|]. intros n I. now rewrite (O n I). }
  unfold compile_functions. cbn [length seq map flat_map]. rewrite !app_nil_r.
  assert (forall i, c_ops (get_context 0 (record Γ1 (flat_map called_stmt (u_body u)) (described u i))) = [] /\ c_names (get_context 0 (record Γ1 (flat_map called_stmt (u_body u)) (described u i))) = []) as Q; [|destruct (Q k) as [-> ->]; destruct (Q 0) as [-> ->]; reflexivity].
  intros i. unfold record. change (cursor (described u i)) with i. destruct i as [|i].
  - rewrite get_put. cbn [c_ops c_names]. split; [exact N1|]. rewrite described_get. cbn [Nat.eqb c_names]. rewrite app_nil_r.
    assert (forall l, (forall n, In n l -> n = f_name f) -> filter (fun x => match local_desc (described u 0) x with Some _ => false | None => true end) l = []) as Fl.
    { induction l as [|n l IH]; intros Hl; [reflexivity|]. cbn [filter]. rewrite (Hl n (or_introl eq_refl)).
      assert (local_desc (described u 0) (f_name f) = Some (map fst (u_params u), u_ret u)) as ->. { unfold local_desc. change (cursor (described u 0)) with 0. cbn [seq map find]. rewrite described_get. cbn [Nat.eqb c_desc desc_of]. change (u_name u) with (f_name f). now rewrite text_eqb_refl. }
      apply IH. intros m I. apply Hl. now right. }
    apply Fl. intros n I. apply O, called_body, I.
  - rewrite get_put_other by lia. rewrite described_get. split; reflexivity.
Qed.
(** After a source with several functions it does not matter how many they were. *)
Lemma later_one t k : fst (compile_one llvm19 op_fun reg is_type type_named t (Session [] (S k))) = fst (compile_one llvm19 op_fun reg is_type type_named t (Session [] 1)).
Proof.
  unfold compile_one. destruct (parse_function_ast is_type type_named t) as [f| | |]; try reflexivity. change (set_desc (udf_of f) 0 (clear (Session [] (S k)))) with (described (udf_of f) (S k)). change (set_desc (udf_of f) 0 (clear (Session [] 1))) with (described (udf_of f) 1).
  set (u := udf_of f) in *. unfold check_function, current. change (cursor (described u (S k))) with (S k). change (cursor (described u 1)) with 1. rewrite !described_get. cbn [Nat.eqb]. destruct (validate_params _ _) as [Γ| | |]; try reflexivity. cbn [obind].
  rewrite (stmts_same op_fun (check_sig reg (described u (S k))) (check_sig reg (described u 1))) by (intros x; unfold check_sig; now rewrite described_local, (described_local u 1)).
  change (return_type (described u (S k))) with (return_type (described u 1)). destruct (validate_stmts _ _ _ _ _ _) as [Γ1| | |]; try reflexivity.
Qed.
Lemma later_expression ret ps t k : fst (compile_expression llvm19 op_fun reg is_type ret ps t (Session [] (S k))) = fst (compile_expression llvm19 op_fun reg is_type ret ps t (Session [] 1)).
Proof.
  unfold compile_expression. assert (forall n, get_context (cursor (clear (Session [] n))) (clear (Session [] n)) = no_context) as G by (intros [|n]; reflexivity). rewrite !G. destruct (add_arguments ps (c_vars no_context)) as [Γ|]; [|reflexivity]. destruct (parse_expression_ast is_type t) as [o| | |]; try reflexivity.
  set (u := Udf expression_name ret ps [S_return (Some o)]). set (st n := set_desc u 0 (put_context (cursor (clear (Session [] n))) (Fcontext Γ [] [] None) (clear (Session [] n)))). change (set_desc u 0 (put_context (cursor (clear (Session [] (S k)))) (Fcontext Γ [] [] None) (clear (Session [] (S k))))) with (st (S k)). change (set_desc u 0 (put_context (cursor (clear (Session [] 1))) (Fcontext Γ [] [] None) (clear (Session [] 1)))) with (st 1).
  assert (forall n, get_context (S n) (st (S n)) = Fcontext Γ [] [] None) as G1. { intros n. unfold st, set_desc. rewrite get_put_other by discriminate. apply get_put. }
  assert (forall n, get_context 0 (st (S n)) = Fcontext [] [] [] (Some (desc_of u))) as G0. { intros n. unfold st, set_desc. rewrite get_put, !get_put_other by discriminate. reflexivity. }
  assert (forall n x, local_desc (st (S n)) x = if text_eqb expression_name x then Some (snd (desc_of u)) else None) as L.
  { intros n x. rewrite (local_first _ (desc_of u)); [reflexivity|now rewrite G0|]. intros i Hi. destruct (Nat.eq_dec i (S n)) as [->|Hn]; [now rewrite G1|]. unfold st, set_desc. rewrite get_put_other by assumption. change (cursor (clear (Session [] (S n)))) with (S n). rewrite get_put_other by assumption. unfold get_context. cbn. now destruct i. }
  assert (forall n, current (st (S n)) = (Γ, [])) as C. { intros n. unfold current. change (cursor (st (S n))) with (S n). now rewrite G1. }
  rewrite !C. rewrite (validate_same op_fun (check_sig reg (st (S k))) (check_sig reg (st 1))) by (intros x; unfold check_sig; now rewrite !L). destruct (validate op_fun (check_sig reg (st 1)) o (Γ, [])) as [[x Γ1]| | |]; try reflexivity.
Qed.
Lemma later r k : fst (answer r (Session [] (S k))) = fst (answer r (Session [] 1)).
Proof.
  destruct r as [t|t|ret ps t]; [apply later_one| |apply later_expression]. now rewrite (source_independent t (Session [] (S k))), (source_independent t (Session [] 1)).
Qed.
End Requests.
Section Answers.
Variable llvm19 : bool.
Variable op_fun : optok -> vty -> option vty.
Variable reg : text -> option (list vty * vty).
Variable is_type : text -> bool.
Variable type_named : text -> option vty.
Lemma independent_answers h s r : serve llvm19 op_fun reg is_type type_named h new_session = Ret s ->
  (forall t, In (CompileSource t) h -> at_most_one (parse_source is_type type_named) t) ->
  fst (answer llvm19 op_fun reg is_type type_named r s) = fst (answer llvm19 op_fun reg is_type type_named r new_session).
Proof.
  intros E H. f_equal. apply (independent llvm19 op_fun reg is_type type_named h); [|exact E]. apply Forall_forall. intros [t|t|ret ps t] I; cbn [single]; [exact Logic.I|exact (H t I)|exact Logic.I].
Qed.
Lemma alone_answers h s t f : serve llvm19 op_fun reg is_type type_named h new_session = Ret s ->
  parse_function_ast is_type type_named t = Ret f -> builtin_op (f_name f) = None ->
  (forall n, In n (flat_map callees_stmt (f_body f)) -> n = f_name f) ->
  fst (answer llvm19 op_fun reg is_type type_named (CompileFunction t) s) = fst (answer llvm19 op_fun reg is_type type_named (CompileFunction t) new_session).
Proof. intros _ P B O. rewrite answer_cursor. exact (alone llvm19 op_fun reg is_type type_named t f (cursor s) P O B). Qed.
(** The cursor after a source that was accepted *)
Lemma check_functions_cursor us : forall i seen s s', check_functions op_fun reg i seen us s = (Ret tt, s') -> us <> [] -> cursor s' = i + length us - 1.
Proof.
  induction us as [|u us IH]; intros i seen s s' E N; [congruence|]. cbn [check_functions] in E. destruct (check_function op_fun reg u (set_desc u i (set_cursor i s))) as [s1| | |] eqn:E1; try discriminate E.
  apply check_cursor in E1. change (cursor (set_desc u i (set_cursor i s))) with i in E1. destruct (existsb (text_eqb (u_name u)) seen); [discriminate E|]. destruct us as [|v us].
  - cbn [check_functions] in E. injection E as <-. cbn [length]. lia.
  - rewrite (IH (S i) _ _ _ E) by discriminate. cbn [length]. lia.
Qed.
Lemma source_cursor_after t s s' us Fs : parse_source is_type type_named t = Ret us -> us <> [] ->
  answer llvm19 op_fun reg is_type type_named (CompileSource t) s = (Ret Fs, s') -> cursor s' = length us - 1.
Proof.
  intros P N E. cbn [answer] in E. unfold compile_source in E. rewrite P in E. destruct (check_functions op_fun reg 0 [] us (clear s)) as [[[]| | |] s1] eqn:E1; try discriminate E. injection E as E <-. now rewrite (check_functions_cursor us 0 [] _ _ E1 N).
Qed.
Lemma later_answer t s s' us Fs r : parse_source is_type type_named t = Ret us -> 2 <= length us ->
  answer llvm19 op_fun reg is_type type_named (CompileSource t) s = (Ret Fs, s') ->
  fst (answer llvm19 op_fun reg is_type type_named r s') = fst (answer llvm19 op_fun reg is_type type_named r (Session [] 1)).
Proof.
  intros P N E. assert (us <> []) as N1 by (intros ->; cbn in N; lia). rewrite answer_cursor, (source_cursor_after t s s' us Fs P N1 E). destruct (length us) as [|[|n]]; try lia. cbn [Nat.sub]. apply later.
Qed.
End Answers.
