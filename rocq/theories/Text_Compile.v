(** Proofs about compilations of source text: the session compiles a source as [Validate_Model.compile_source] does its
    functions. *)
From Coq Require Import Ascii String List Bool Arith ZArith Lia.
Import ListNotations.
From Verif Require Import Base Lexer_Model Lexer_Proofs Op_Model Number_Model Parser_Model Parser_Spec Ir_Model Codegen_Model Codegen_Spec Codegen_Lemmas Codegen_Shape Codegen_Scope Validate_Model Validate_Spec Session_Model Session_Proofs.

(** *** Code depends only on the signatures of the functions that are called *)
Section NodeInd.
Variable P : node -> Prop.
Hypothesis Hb : forall b, P (N_bool b).
Hypothesis Hn : forall v ty, P (N_num v ty).
Hypothesis Hv : forall x, P (N_var x).
Hypothesis Hd : forall x, P (N_def x).
Hypothesis Hc : forall f args, Forall (Forall P) args -> P (N_call f args).
Hypothesis Ho : forall op, P (N_op op).
Hypothesis Hx : P N_other.
Fixpoint node_ind2 (n : node) : P n :=
  match n with
  | N_bool b => Hb b
  | N_num v ty => Hn v ty
  | N_var x => Hv x
  | N_def x => Hd x
  | N_call f args =>
      Hc f args ((fix outer (l : list (list node)) : Forall (Forall P) l :=
        match l with
        | [] => Forall_nil _
        | ns :: l' => Forall_cons ns ((fix inner (ns : list node) : Forall P ns := match ns with [] => Forall_nil _ | m :: ns' => Forall_cons m (node_ind2 m) (inner ns') end) ns) (outer l')
        end) args)
  | N_op op => Ho op
  | N_other => Hx
  end.
End NodeInd.
Fixpoint node_calls (n : node) : list text :=
  match n with N_call f args => f :: flat_map (flat_map node_calls) args | _ => [] end.

Lemma in_flat {A B} (f : A -> list B) l y : In y (flat_map f l) <-> exists x, In x l /\ In y (f x).
Proof. apply in_flat_map. Qed.
Lemma emit_calls o : incl (flat_map node_calls (emit o)) (called o).
Proof.
  induction o as [| | | |n p|n p|n l p IH|c a b IHc IHa IHb|l r p IHl IHr|op x p IH| |] using operand_ind2; cbn [emit called]; try (intros m [I|[]]; contradiction); try (intros m []; contradiction).
  - destruct (builtin_op n) as [bo|]; [intros m []|]. destruct (other_name n); [intros m []|]. intros m [<-|[]]. now left.
  - destruct (builtin_op n) as [bo|].
    + cbn [app]. rewrite flat_map_app. cbn [flat_map node_calls]. rewrite !app_nil_r. induction IH as [|o l H _ IHl]; [apply incl_refl|]. cbn [flat_map]. rewrite flat_map_app. apply incl_app; [now apply incl_appl|now apply incl_appr].
    + destruct (other_name n); [intros m []|]. cbn [flat_map node_calls]. rewrite app_nil_r. intros m [<-|I]; [now left|right; cbn [app]]. induction IH as [|o l H _ IHl]; [exact I|]. cbn [map flat_map] in *. apply in_app_or in I as [I|I]; apply in_or_app; [left; now apply H|right; auto].
  - rewrite !flat_map_app. cbn [flat_map node_calls]. rewrite !app_nil_r. apply incl_app; [now apply incl_appl|]. apply incl_appr. apply incl_app; [now apply incl_appl|now apply incl_appr].
  - rewrite flat_map_app. apply incl_app; [now apply incl_appl|apply incl_appr]. induction IHr as [|[op o] r H _ IH]; [apply incl_refl|]. cbn [flat_map snd] in *. rewrite !flat_map_app. cbn [flat_map node_calls]. rewrite !app_nil_r. apply incl_app; [now apply incl_appl|now apply incl_appr].
  - rewrite flat_map_app. destruct op; cbn [flat_map node_calls]; rewrite !app_nil_r; exact IH.
Qed.

Section Congruence.
Variable llvm19 : bool.
Variable opf : optok -> vty -> option vty.
Variables f g : text -> option (list vty * vty).
Definition agree (l : list text) : Prop := forall x, In x l -> f x = g x.
Lemma agree_app l m : agree (l ++ m) -> agree l /\ agree m.
Proof. intros H; split; intros x I; apply H, in_or_app; auto. Qed.
Notation bf := (build_node llvm19 opf f). Notation bg := (build_node llvm19 opf g).
Definition node_ok (n : node) : Prop := agree (node_calls n) -> forall σ, bf n σ = bg n σ.
Lemma nodes_same ns : Forall node_ok ns -> agree (flat_map node_calls ns) -> forall σ, build_nodes bf ns σ = build_nodes bg ns σ.
Proof.
  induction 1 as [|n ns H _ IH]; intros A σ; [reflexivity|]. cbn [flat_map] in A. apply agree_app in A as [A1 A2]. cbn [build_nodes]. rewrite (H A1). destruct (bg n σ) as [[e σ1]| | |]; cbn [obind]; [|reflexivity..]. now rewrite (IH A2).
Qed.
Lemma rpn_same ns : Forall node_ok ns -> agree (flat_map node_calls ns) -> forall σ, build_rpn_with llvm19 opf bf ns σ = build_rpn_with llvm19 opf bg ns σ.
Proof. intros H A σ. unfold build_rpn_with. now rewrite (nodes_same ns H A). Qed.
Lemma node_same n : node_ok n.
Proof.
  induction n as [| | | |h args IH| |] using node_ind2; intros A σ; cbn [build_node]; try reflexivity. cbn [node_calls] in A.
  assert (forall σ, build_args llvm19 opf bf args σ = build_args llvm19 opf bg args σ) as E.
  { assert (agree (flat_map (flat_map node_calls) args)) as A' by (intros x I; apply A; now right). clear A. induction IH as [|ns l H _ IH]; intros s; [reflexivity|]. cbn [flat_map] in A'. apply agree_app in A' as [A1 A2]. cbn [build_args]. rewrite (rpn_same ns H A1).
    destruct (build_rpn_with llvm19 opf bg ns s) as [[id s1]| | |]; cbn [obind]; [|reflexivity..]. now rewrite (IH A2). }
  rewrite E. destruct (build_args llvm19 opf bg args σ) as [[ids σ1]| | |]; cbn [obind]; [|reflexivity..]. unfold call_function. now rewrite (A h (or_introl eq_refl)).
Qed.
Lemma expr_same o : agree (called o) -> forall σ, build_expr llvm19 opf f o σ = build_expr llvm19 opf g o σ.
Proof.
  intros A σ. unfold build_expr, build_rpn. apply rpn_same; [apply Forall_forall; intros n _; apply node_same|]. intros x I. apply A, emit_calls, I.
Qed.
Lemma cond_same o : agree (called o) -> forall σ, build_cond llvm19 opf f o σ = build_cond llvm19 opf g o σ.
Proof. intros A σ. unfold build_cond. now rewrite (expr_same o A). Qed.
Notation sf := (build_stmt llvm19 opf f). Notation sg := (build_stmt llvm19 opf g).
Definition stmt_ok (s : stmt) : Prop := agree (called_stmt s) -> forall σ, sf s σ = sg s σ.
Lemma slist_same l : Forall stmt_ok l -> agree (flat_map called_stmt l) -> forall σ, build_list sf l σ = build_list sg l σ.
Proof.
  induction 1 as [|s l H _ IH]; intros A σ; [reflexivity|]. cbn [flat_map] in A. apply agree_app in A as [A1 A2].
  change (build_list sf (s :: l) σ) with (do! σ <- sf s σ; build_list sf l σ). change (build_list sg (s :: l) σ) with (do! σ <- sg s σ; build_list sg l σ). rewrite (H A1). destruct (sg s σ) as [σ1| | |]; cbn [obind]; [|reflexivity..]. now apply IH.
Qed.
Lemma stmt_code_same s : stmt_ok s.
Proof.
  induction s as [e|e|c l IH|c l es el IH IHes IHel| |] using stmt_ind2; intros A σ; cbn [called_stmt] in A; cbn [build_stmt]; try reflexivity.
  - destruct e as [e|]; [|reflexivity]. now rewrite (expr_same e A).
  - now rewrite (expr_same e A).
  - apply agree_app in A as [A1 A2]. destruct (new_loop σ) as [[[cb bb] eb] σ1]. rewrite (cond_same c A1). destruct (build_cond llvm19 opf g c σ1) as [[id σ2]| | |]; cbn [obind]; [|reflexivity..].
    destruct (add_loop_cond bb eb id σ2) as [σ3| | |]; cbn [obind]; [|reflexivity..]. now rewrite (slist_same l IH A2).
  - apply agree_app in A as [A1 A]. apply agree_app in A as [A2 A]. apply agree_app in A as [A3 A4]. rewrite (cond_same c A1). destruct (build_cond llvm19 opf g c σ) as [[id σ2]| | |]; cbn [obind]; [|reflexivity..].
    destruct (new_condition _ _ σ2) as [[[[ib bs] eb] e] σ3]. destruct (branch_ir id ib (next_block bs eb e) σ3) as [σ4| | |]; cbn [obind]; [|reflexivity..].
    rewrite (slist_same l IH A2). destruct (build_list sg l σ4) as [σ5| | |]; cbn [obind]; [|reflexivity..].
    assert (forall bs σ, build_elifs llvm19 opf f (build_list sf) eb e es bs σ = build_elifs llvm19 opf g (build_list sg) eb e es bs σ) as E.
    { clear - IHes A3. induction IHes as [|[c l] es H _ IH]; intros [|[cb bb] bs] σ; try reflexivity. cbn [flat_map] in A3. apply agree_app in A3 as [A A3]. apply agree_app in A as [A1 A2]. cbn [snd] in H.
      change (build_elifs llvm19 opf f (build_list sf) eb e ((c, l) :: es) ((cb, bb) :: bs) σ) with (do! (id, σ) <- build_cond llvm19 opf f c (set_cur cb σ); do! σ <- branch_ir id bb (next_block bs eb e) σ; do! σ <- build_list sf l σ; build_elifs llvm19 opf f (build_list sf) eb e es bs (end_branch bb e σ)).
      change (build_elifs llvm19 opf g (build_list sg) eb e ((c, l) :: es) ((cb, bb) :: bs) σ) with (do! (id, σ) <- build_cond llvm19 opf g c (set_cur cb σ); do! σ <- branch_ir id bb (next_block bs eb e) σ; do! σ <- build_list sg l σ; build_elifs llvm19 opf g (build_list sg) eb e es bs (end_branch bb e σ)).
      rewrite (cond_same c A1). destruct (build_cond llvm19 opf g c (set_cur cb σ)) as [[id σ1]| | |]; cbn [obind]; [|reflexivity..]. destruct (branch_ir id bb (next_block bs eb e) σ1) as [σ2| | |]; cbn [obind]; [|reflexivity..].
      rewrite (slist_same l H A2). destruct (build_list sg l σ2) as [σ3| | |]; cbn [obind]; [|reflexivity..]. now apply IH. }
    rewrite E. destruct (build_elifs _ _ _ _ _ _ _ _ _) as [σ6| | |]; cbn [obind]; [|reflexivity..]. destruct el as [l0|]; [|reflexivity]. destruct eb; [|reflexivity]. cbn [oall] in IHel. now rewrite (slist_same l0 IHel A4).
Qed.
Lemma compile_same ret ps body : agree (flat_map called_stmt body) -> compile llvm19 opf f ret ps body = compile llvm19 opf g ret ps body.
Proof. intros A. unfold compile, build_stmts. rewrite (slist_same body); [reflexivity| |exact A]. apply Forall_forall. intros s _. apply stmt_code_same. Qed.
End Congruence.

(** *** Functions that are called defd *)
Section Called.
Variable op_fun : optok -> vty -> option vty.
Variable f : text -> option (list vty * vty).
Definition defd (l : list text) : Prop := forall x, In x l -> f x <> None.
Lemma defd_app l m : defd l -> defd m -> defd (l ++ m).
Proof. intros H1 H2 x I. apply in_app_or in I as [I|I]; auto. Qed.
Lemma defd_nil : defd []. Proof. intros x []. Qed.
Definition op_found (o : operand) : Prop := forall Γ r, validate op_fun f o Γ = Ret r -> defd (called o).
Lemma args_found l : Forall op_found l -> forall Γ r, validate_args (validate op_fun f) l Γ = Ret r -> defd (flat_map called l).
Proof.
  induction 1 as [|o l H _ IH]; intros Γ r E; [apply defd_nil|]. cbn [validate_args flat_map] in *. destruct (validate op_fun f o Γ) as [[x Γ1]| | |] eqn:E1; try discriminate E. cbn [obind] in E.
  destruct (validate_args (validate op_fun f) l Γ1) as [[ts Γ2]| | |] eqn:E2; try discriminate E. apply defd_app; [exact (H _ _ E1)|exact (IH _ _ E2)].
Qed.
Lemma rest_found r : Forall (fun x => op_found (snd x)) r -> forall l Γ y, validate_rest (validate op_fun f) l r Γ = Ret y -> defd (flat_map (fun x => match x with (_, y) => called y end) r).
Proof.
  induction 1 as [|[op o] r H _ IH]; intros l Γ y E; [apply defd_nil|]. cbn [validate_rest flat_map snd] in *. destruct (validate op_fun f o Γ) as [[x Γ1]| | |] eqn:E1; try discriminate E. cbn [obind] in E.
  destruct (check_binary op l x Γ1) as [[z Γ2]| | |]; try discriminate E. cbn [obind] in E. apply defd_app; [exact (H _ _ E1)|exact (IH _ _ _ E)].
Qed.
Lemma found o : op_found o.
Proof.
  induction o as [| | | |n p|n p|n l p IH|c a b IHc IHa IHb|l r p IHl IHr|op x p IH| |] using operand_ind2; intros Γ y E; cbn [validate called] in *; try apply defd_nil.
  - rewrite app_nil_r. destruct (builtin_op n) as [bo|]; [apply defd_nil|]. destruct (other_name n); [discriminate E|]. destruct (f n) eqn:F; [|discriminate E]. intros x [<-|[]]. congruence.
  - destruct (builtin_op n) as [bo|]; cbn [app].
    + destruct (validate_args (validate op_fun f) l Γ) as [[ts Γ1]| | |] eqn:E1; try discriminate E. exact (args_found l IH _ _ E1).
    + destruct (other_name n); [discriminate E|]. destruct (f n) as [[ps rt]|] eqn:F; [|discriminate E]. destruct (validate_args (validate op_fun f) l Γ) as [[ts Γ1]| | |] eqn:E1; try discriminate E. intros x [<-|I]; [congruence|exact (args_found l IH _ _ E1 x I)].
  - destruct (validate op_fun f c Γ) as [[x Γ1]| | |] eqn:E1; try discriminate E. cbn [obind] in E. destruct (validate op_fun f a Γ1) as [[y1 Γ2]| | |] eqn:E2; try discriminate E. cbn [obind] in E. destruct (validate op_fun f b Γ2) as [[y2 Γ3]| | |] eqn:E3; try discriminate E.
    apply defd_app; [exact (IHc _ _ E1)|]. apply defd_app; [exact (IHa _ _ E2)|exact (IHb _ _ E3)].
  - destruct (validate op_fun f l Γ) as [[x Γ1]| | |] eqn:E1; try discriminate E. cbn [obind] in E. apply defd_app; [exact (IHl _ _ E1)|exact (rest_found r IHr _ _ _ E)].
  - destruct (validate op_fun f x Γ) as [[z Γ1]| | |] eqn:E1; try discriminate E. exact (IH _ _ E1).
Qed.
Variable ret : vty.
Notation vs := (validate_stmt op_fun f ret).
Definition stmt_found (s : stmt) : Prop := forall b Γ r, vs b s Γ = Ret r -> defd (called_stmt s).
Lemma list_found l : Forall stmt_found l -> forall b Γ r, validate_list vs b l Γ = Ret r -> defd (flat_map called_stmt l).
Proof.
  induction 1 as [|s l H _ IH]; intros b Γ r E; [apply defd_nil|]. change (validate_list vs b (s :: l) Γ) with (do! Γ <- vs b s Γ; validate_list vs b l Γ) in E. destruct (vs b s Γ) as [Γ1| | |] eqn:E1; try discriminate E. cbn [obind] in E. cbn [flat_map]. apply defd_app; [exact (H _ _ _ E1)|exact (IH _ _ _ E)].
Qed.
Lemma choice_found b c l Γ r : Forall stmt_found l -> validate_choice op_fun f (validate_list vs b) c l Γ = Ret r -> defd (called c) /\ defd (flat_map called_stmt l).
Proof.
  intros H E. unfold validate_choice in E. destruct (validate op_fun f c Γ) as [[x Γ1]| | |] eqn:E1; try discriminate E. cbn [obind] in E. destruct (vty_eqb (fst x) TBit); [|discriminate E]. split; [exact (found c _ _ E1)|exact (list_found l H _ _ _ E)].
Qed.
Lemma all_found s : stmt_found s.
Proof.
  induction s as [e|e|c l IH|c l es el IH IHes IHel| |] using stmt_ind2; intros b Γ r E; cbn [validate_stmt called_stmt] in *; try apply defd_nil.
  - destruct e as [e|]; [|apply defd_nil]. destruct (validate op_fun f e Γ) as [x| | |] eqn:E1; try discriminate E. exact (found e _ _ E1).
  - destruct (validate op_fun f e Γ) as [x| | |] eqn:E1; try discriminate E. exact (found e _ _ E1).
  - apply choice_found in E as [E1 E2]; [|exact IH]. now apply defd_app.
  - destruct (validate_choice op_fun f (validate_list vs b) c l Γ) as [Γ1| | |] eqn:E1; try discriminate E. cbn [obind] in E. apply choice_found in E1 as [E1 E1']; [|exact IH].
    destruct (validate_elifs op_fun f (validate_list vs b) es Γ1) as [Γ2| | |] eqn:E2; try discriminate E. cbn [obind] in E. apply defd_app; [exact E1|]. apply defd_app; [exact E1'|]. apply defd_app.
    + clear - E2 IHes. revert Γ1 Γ2 E2. induction IHes as [|[c l] es H _ IH]; intros Γ1 Γ2 E2; [apply defd_nil|].
      change (validate_elifs op_fun f (validate_list vs b) ((c, l) :: es) Γ1) with (do! Γ <- validate_choice op_fun f (validate_list vs b) c l Γ1; validate_elifs op_fun f (validate_list vs b) es Γ) in E2.
      destruct (validate_choice op_fun f (validate_list vs b) c l Γ1) as [Γ3| | |] eqn:E3; try discriminate E2. cbn [obind] in E2. apply choice_found in E3 as [X Y]; [|exact H]. cbn [flat_map]. apply defd_app; [now apply defd_app|exact (IH _ _ E2)].
    + destruct el as [l0|]; [|apply defd_nil]. exact (list_found l0 IHel _ _ _ E).
Qed.
Lemma body_found b l Γ r : validate_stmts op_fun f ret b l Γ = Ret r -> defd (flat_map called_stmt l).
Proof. apply list_found, Forall_forall. intros s _. apply all_found. Qed.
End Called.

(** *** A session checks and compiles the functions of a source one after the other *)
Section Session.
Variable llvm19 : bool.
Variable op_fun : optok -> vty -> option vty.
Variable reg : text -> option (list vty * vty).
Definition named (f : text) (u : udf) : bool := text_eqb (u_name u) f.
Definition sig_of (u : udf) : list vty * vty := (map fst (u_params u), u_ret u).
Lemma local_sig_find us f : local_sig us reg f = match find (named f) us with Some u => Some (sig_of u) | None => reg f end.
Proof. reflexivity. Qed.
(** What is recorded for function [j] of [all] *)
Definition described_as (u : udf) (c : fcontext) : Prop := c_desc c = Some (desc_of u).
Definition outside (all : list udf) (j : nat) (f : text) : bool := match find (named f) (firstn (S j) all) with Some _ => false | None => true end.
Definition recorded (all : list udf) (j : nat) (u : udf) (c : fcontext) : Prop :=
  described_as u c /\ c_names c = filter (outside all j) (flat_map called_stmt (u_body u)) /\
  forall x, In x (flat_map called_stmt (u_body u)) -> local_sig (firstn (S j) all) reg x <> None.

Lemma find_described L us f : Forall2 (fun c u => described_as u c) L us ->
  match find (fun c => match c_desc c with Some (g, _) => text_eqb g f | None => false end) L with
  | Some c => match c_desc c with Some (_, sg) => Some sg | None => None end
  | None => None
  end = match find (named f) us with Some u => Some (sig_of u) | None => None end.
Proof.
  induction 1 as [|c u L us H _ IH]; [reflexivity|]. cbn [find]. unfold described_as in H. rewrite H. unfold desc_of, named. destruct (text_eqb (u_name u) f); [now rewrite H|exact IH].
Qed.
Lemma contexts_forall s (P : nat -> udf -> fcontext -> Prop) us : forall i, (forall j u, nth_error us j = Some u -> P (i + j) u (get_context (i + j) s)) ->
  Forall2 (fun c x => P (fst x) (snd x) c) (map (fun i => get_context i s) (seq i (length us))) (combine (seq i (length us)) us).
Proof.
  induction us as [|u us IH]; intros i H; cbn [length seq map combine]; constructor.
  - cbn [fst snd]. specialize (H 0 u eq_refl). now rewrite Nat.add_0_r in H.
  - apply IH. intros j v E. rewrite Nat.add_succ_comm. now apply (H (S j)).
Qed.
Lemma contexts_described s us i : (forall j u, nth_error us j = Some u -> described_as u (get_context (i + j) s)) ->
  Forall2 (fun c u => described_as u c) (map (fun i => get_context i s) (seq i (length us))) us.
Proof.
  revert i. induction us as [|u us IH]; intros i H; cbn [length seq map]; constructor.
  - specialize (H 0 u eq_refl). now rewrite Nat.add_0_r in H.
  - apply IH. intros j v E. rewrite Nat.add_succ_comm. now apply (H (S j)).
Qed.
Lemma session_sig s us : S (cursor s) = length us -> (forall j u, nth_error us j = Some u -> described_as u (get_context j s)) -> forall f, local_desc s f = match find (named f) us with Some u => Some (sig_of u) | None => None end.
Proof. intros C H f. unfold local_desc. rewrite C. apply find_described, contexts_described. exact H. Qed.

Definition first_ret (us : list udf) : vty := match us with u :: _ => u_ret u | [] => TVoid end.
Definition ready (all : list udf) (i : nat) (s : session) : Prop :=
  (forall j u, j < i -> nth_error all j = Some u -> recorded all j u (get_context j s)) /\ (forall j, i <= j -> get_context j s = no_context).
Lemma firstn_here {A} (l : list A) x l' : firstn (S (length l)) (l ++ x :: l') = l ++ [x].
Proof. rewrite firstn_app. rewrite firstn_all2 by lia. replace (S (length l) - length l) with 1 by lia. reflexivity. Qed.
Lemma check_here all done u us s : all = done ++ u :: us -> ready all (length done) s ->
  let i := length done in let s1 := set_desc u i (set_cursor i s) in let F := local_sig (done ++ [u]) reg in
  match validate_function op_fun F (first_ret all) (u_params u) (u_body u) with
  | Ret Γ => exists s2, check_function op_fun reg u s1 = Ret s2 /\ ready all (S i) s2 /\ c_ops (get_context i s2) = snd Γ /\ (forall j, j < i -> get_context j s2 = get_context j s)
  | Err => check_function op_fun reg u s1 = Err
  | UB => check_function op_fun reg u s1 = UB
  | Hang => check_function op_fun reg u s1 = Hang
  end.
Proof.
  intros Eall [R1 R2] i s1 F. assert (get_context i s1 = Fcontext [] [] [] (Some (desc_of u))) as Gi.
  { unfold s1, set_desc. rewrite get_put. change (get_context i (set_cursor i s)) with (get_context i s). now rewrite (R2 i (le_n _)). }
  assert (forall j, j <> i -> get_context j s1 = get_context j s) as Gj. { intros j N. unfold s1, set_desc. now rewrite get_put_other. }
  assert (cursor s1 = i) as Ci by reflexivity.
  assert (forall j v, nth_error (done ++ [u]) j = Some v -> described_as v (get_context j s1)) as Gd.
  { intros j v E. destruct (Nat.lt_trichotomy j i) as [L|[->|L]].
    - rewrite Gj by lia. rewrite nth_error_app1 in E by exact L. apply (R1 j v L). rewrite Eall. now rewrite nth_error_app1.
    - rewrite nth_error_app2 in E by apply le_n. unfold i in E. rewrite Nat.sub_diag in E. injection E as <-. rewrite Gi. reflexivity.
    - assert (length (done ++ [u]) <= j) as Q by (rewrite app_length; cbn [length]; unfold i in L; lia). apply nth_error_None in Q. congruence. }
  assert (forall f, local_desc s1 f = match find (named f) (done ++ [u]) with Some u => Some (sig_of u) | None => None end) as Hl.
  { apply session_sig; [rewrite Ci, app_length; cbn [length]; unfold i; lia|exact Gd]. }
  assert (forall f, check_sig reg s1 f = F f) as Hc. { intros f. unfold check_sig. rewrite Hl. unfold F. rewrite local_sig_find. now destruct (find (named f) (done ++ [u])). }
  assert (return_type s1 = first_ret all) as Hr.
  { unfold return_type. destruct done as [|v done'].
    - change 0 with i. rewrite Gi. cbn [c_desc desc_of]. now rewrite Eall.
    - assert (described_as v (get_context 0 s1)) as D by (apply Gd; reflexivity). unfold described_as in D. rewrite D. cbn [desc_of]. now rewrite Eall. }
  unfold validate_function, check_function. rewrite Hr. match goal with |- context [validate_params (u_params u) ?e] => assert (current s1 = e) as -> by (unfold current; rewrite Ci, Gi; reflexivity) end.
  destruct (validate_params (u_params u) ([], [])) as [Γ| | |]; cbn [obind]; try reflexivity. rewrite (stmts_same op_fun (check_sig reg s1) F Hc (first_ret all)).
  destruct (validate_stmts op_fun F (first_ret all) false (u_body u) Γ) as [Γ1| | |] eqn:E; cbn [obind]; try reflexivity.
  eexists. split; [reflexivity|]. unfold record. rewrite Ci, Gi. cbn [c_names c_desc]. rewrite app_nil_r. split; [|split; [now rewrite get_put|intros j L; rewrite get_put_other by lia; apply Gj; lia]]. split.
  - intros j v L En. destruct (Nat.eq_dec j i) as [->|N].
    + rewrite get_put. assert (v = u) as -> by (unfold i in En; rewrite Eall, nth_error_app2, Nat.sub_diag in En by apply le_n; now injection En as <-). split; [reflexivity|]. cbn [c_names]. split.
      * apply filter_ext. intros x. rewrite Hl. unfold outside. unfold i. rewrite Eall, firstn_here. now destruct (find (named x) (done ++ [u])).
      * unfold i. rewrite Eall, firstn_here. exact (body_found op_fun F (first_ret all) false (u_body u) Γ Γ1 E).
    + rewrite get_put_other by exact N. rewrite Gj by exact N. apply R1; [lia|exact En].
  - intros j L. rewrite get_put_other by lia. rewrite Gj by lia. apply R2. lia.
Qed.
Lemma checks us : forall done seen all s, all = done ++ us -> ready all (length done) s ->
  (forall n, existsb (text_eqb n) seen = existsb (fun v => text_eqb (u_name v) n) done) ->
  match validate_functions op_fun reg (first_ret all) done us with
  | Ret D => exists s', check_functions op_fun reg (length done) seen us s = (Ret tt, s') /\ ready all (length all) s' /\
      flat_map c_ops (map (fun i => get_context i s') (seq (length done) (length us))) = D /\ (forall j, j < length done -> get_context j s' = get_context j s)
  | Err => fst (check_functions op_fun reg (length done) seen us s) = Err
  | UB => fst (check_functions op_fun reg (length done) seen us s) = UB
  | Hang => fst (check_functions op_fun reg (length done) seen us s) = Hang
  end.
Proof.
  induction us as [|u us IH]; intros done seen all s Eall R Hs; cbn [validate_functions check_functions].
  - exists s. split; [reflexivity|]. rewrite app_nil_r in Eall. subst all. split; [exact R|]. split; [reflexivity|auto].
  - pose proof (check_here all done u us s Eall R) as C. cbn zeta in C. destruct (validate_function op_fun (local_sig (done ++ [u]) reg) (first_ret all) (u_params u) (u_body u)) as [Γ| | |]; cbn [obind].
    2, 3, 4: rewrite C; reflexivity.
    destruct C as (s2 & E2 & R2 & O2 & K2). rewrite E2. rewrite Hs. destruct (existsb (fun v => text_eqb (u_name v) (u_name u)) done) eqn:Ex; [reflexivity|].
    assert (length (done ++ [u]) = S (length done)) as Len by (rewrite app_length; cbn [length]; lia).
    specialize (IH (done ++ [u]) (u_name u :: seen) all s2). rewrite <- app_assoc in IH. specialize (IH Eall). rewrite Len in IH. specialize (IH R2).
    assert (forall n, existsb (text_eqb n) (u_name u :: seen) = existsb (fun v => text_eqb (u_name v) n) (done ++ [u])) as Hs'.
    { intros n. cbn [existsb]. rewrite existsb_app. cbn [existsb]. rewrite Hs, orb_false_r, orb_comm. f_equal. destruct (text_eqb n (u_name u)) eqn:Q.
      - apply text_eqb_eq in Q. subst n. symmetry. now apply text_eqb_eq.
      - destruct (text_eqb (u_name u) n) eqn:Q'; [|reflexivity]. apply text_eqb_eq in Q'. assert (text_eqb n (u_name u) = true) by (apply text_eqb_eq; congruence). congruence. }
    specialize (IH Hs'). destruct (validate_functions op_fun reg (first_ret all) (done ++ [u]) us) as [D| | |]; cbn [obind]; try exact IH.
    destruct IH as (s' & E' & R' & O' & K'). exists s'. split; [exact E'|]. split; [exact R'|]. split.
    + cbn [length seq map flat_map]. rewrite O'. now rewrite (K' (length done) (Nat.lt_succ_diag_r _)), O2.
    + intros j L. rewrite (K' j) by lia. now apply K2.
Qed.

Variable all : list udf.
Hypothesis unregistered : forall u, In u all -> reg (u_name u) = None.
Lemma in_firstn {A} (x : A) n l : In x (firstn n l) -> In x l.
Proof. revert l. induction n as [|n IH]; intros [|y l] H; cbn in *; try contradiction. destruct H; auto. Qed.
Lemma find_firstn {A} (p : A -> bool) n l x : find p (firstn n l) = Some x -> In x l /\ p x = true.
Proof. intros H. apply find_some in H as [H1 H2]. split; [exact (in_firstn _ _ _ H1)|exact H2]. Qed.
Lemma builds names : (forall x, In x names -> reg x <> None) -> forall ops us done, all = done ++ us ->
  (forall j u x, nth_error us j = Some u -> In x (flat_map called_stmt (u_body u)) -> find (named x) (firstn (S (length done + j)) all) <> None \/ In x names) ->
  build_functions llvm19 op_fun reg ops names done us = compile_all llvm19 op_fun reg ops done us.
Proof.
  intros Hn ops. induction us as [|u us IH]; intros done Eall H; cbn [build_functions compile_all]; [reflexivity|].
  rewrite (compile_same llvm19 (declared_fun op_fun ops) (code_sig reg names (done ++ [u])) (local_sig (done ++ [u]) reg)).
  - destruct (compile _ _ _ _ _ _) as [F| | |]; cbn [obind]; [|reflexivity..]. rewrite (IH (done ++ [u])); [reflexivity|rewrite Eall, <- app_assoc; reflexivity|].
    intros j v x E I. rewrite app_length. cbn [length]. replace (length done + 1 + j) with (length done + S j) by lia. now apply (H (S j) v x).
  - intros x I. unfold code_sig. rewrite local_sig_find. specialize (H 0 u x eq_refl I). rewrite Nat.add_0_r, Eall, firstn_here in H.
    change (find (fun u => text_eqb (u_name u) x) (done ++ [u])) with (find (named x) (done ++ [u])). destruct (find (named x) (done ++ [u])) as [v|] eqn:F.
    + assert (In v all /\ named x v = true) as [Iv Nv]. { apply find_some in F as [F1 F2]. split; [|exact F2]. rewrite Eall. apply in_app_or in F1 as [F1|[<-|[]]]; apply in_or_app; [now left|right; now left]. }
      apply text_eqb_eq in Nv. subst x. destruct (existsb (text_eqb (u_name v)) names) eqn:Ex; [|reflexivity]. apply existsb_exists in Ex as (y & Iy & Q). apply text_eqb_eq in Q. subst y. elim (Hn _ Iy). exact (unregistered v Iv).
    + destruct H as [H|H]; [now elim H|]. assert (existsb (text_eqb x) names = true) as ->; [|reflexivity]. apply existsb_exists. exists x. split; [exact H|now apply text_eqb_eq].
Qed.
Lemma compiled s : ready all (length all) s -> compile_functions llvm19 op_fun reg all s = compile_all llvm19 op_fun reg (flat_map c_ops (map (fun i => get_context i s) (seq 0 (length all)))) [] all.
Proof.
  intros [R _]. unfold compile_functions. apply builds; [|reflexivity|].
  - intros x I. apply in_flat_map in I as (c & Ic & I). apply in_map_iff in Ic as (j & <- & Ij). apply in_seq in Ij. destruct (nth_error all j) as [u|] eqn:E; [|apply nth_error_None in E; lia].
    destruct (R j u ltac:(lia) E) as (_ & Hn & Hx). rewrite Hn in I. apply filter_In in I as [I O]. specialize (Hx x I). rewrite local_sig_find in Hx. unfold outside in O. destruct (find (named x) (firstn (S j) all)); [discriminate O|exact Hx].
  - intros j u x E I. cbn [length Nat.add]. assert (j < length all) as L by (apply nth_error_Some; congruence). destruct (R j u L E) as (_ & Hn & Hx). destruct (find (named x) (firstn (S j) all)) eqn:F; [left; congruence|right].
    apply in_flat_map. exists (get_context j s). split; [apply in_map_iff; exists j; split; [reflexivity|apply in_seq; lia]|]. rewrite Hn. apply filter_In. split; [exact I|]. unfold outside. now rewrite F.
Qed.
Lemma source_compiled is_type type_named t s : parse_source is_type type_named t = Ret all ->
  fst (Session_Model.compile_source llvm19 op_fun reg is_type type_named t s) = Validate_Model.compile_source llvm19 op_fun reg all.
Proof.
  intros P. unfold Session_Model.compile_source, Validate_Model.compile_source. rewrite P. assert (ready all 0 (clear s)) as R0. { split; [intros j u L; lia|]. intros [|j] _; reflexivity. }
  pose proof (checks all [] [] all (clear s) eq_refl R0 (fun _ => eq_refl)) as C. change (match all with u :: _ => u_ret u | [] => TVoid end) with (first_ret all).
  destruct (validate_functions op_fun reg (first_ret all) [] all) as [D| | |]; cbn [obind].
  - destruct C as (s' & E & R & O & _). change (length (@nil udf)) with 0 in *. rewrite E. cbn [fst]. rewrite (compiled s' R), O. reflexivity.
  - change (length (@nil udf)) with 0 in C. destruct (check_functions op_fun reg 0 [] all (clear s)) as [o s']. cbn [fst] in C. subst o. reflexivity.
  - change (length (@nil udf)) with 0 in C. destruct (check_functions op_fun reg 0 [] all (clear s)) as [o s']. cbn [fst] in C. subst o. reflexivity.
  - change (length (@nil udf)) with 0 in C. destruct (check_functions op_fun reg 0 [] all (clear s)) as [o s']. cbn [fst] in C. subst o. reflexivity.
Qed.
End Session.
