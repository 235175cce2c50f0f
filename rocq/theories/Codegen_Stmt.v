(** Code generated for expression statements, declarations and assignments. *)
From Coq Require Import Ascii String List Bool Arith ZArith Lia.
Import ListNotations.
From Verif Require Import Base Lexer_Model Lexer_Proofs Op_Model Op_Lemmas Number_Model Parser_Model Parser_Spec Parser_Print Ir_Model Codegen_Model Codegen_Spec Codegen_Lemmas Codegen_Expr.

(** The variables of the generator: type and stack slot. *)
Definition gvar (σ : cg) (x : text) : option (vty * nat) :=
  match find_text (named σ) x with
  | None => None
  | Some id => match nth_error (objs σ) id with Some (Val t (LSlot k)) => Some (t, k) | _ => None end
  end.
Definition gsub (σ : cg) (G : text -> option (vty * nat)) : Prop := forall x p, gvar σ x = Some p -> G x = Some p.
Record VI (σ : cg) : Prop := {
  vi_ok : objs_ok σ;
  vi_var : forall x id, find_text (named σ) x = Some id ->
    x <> lit "pi" /\ x <> lit "e" /\
    exists t k, nth_error (objs σ) id = Some (Val t (LSlot k)) /\ t <> TVoid /\ k < nslot σ /\ ret_slot σ <> Some k;
  vi_inj : forall x y t t' k, gvar σ x = Some (t, k) -> gvar σ y = Some (t', k) -> x = y;
  vi_ret : forall k, ret_slot σ = Some k -> k < nslot σ }.
Lemma VI_nok σ : VI σ -> nok σ.
Proof. intros H x id E. destruct (vi_var _ H _ _ E) as (_ & _ & t & k & Hn & _). eapply nth_error_lt; eauto. Qed.
Lemma gvar_some σ x t k : gvar σ x = Some (t, k) -> exists id, find_text (named σ) x = Some id /\ nth_error (objs σ) id = Some (Val t (LSlot k)).
Proof.
  unfold gvar. destruct (find_text (named σ) x) as [id|]; [|discriminate]. destruct (nth_error (objs σ) id) as [[t' []]|] eqn:E; try discriminate. injection 1 as -> ->. eauto.
Qed.
Lemma VI_gvar σ x id : VI σ -> find_text (named σ) x = Some id -> exists t k, gvar σ x = Some (t, k) /\ nth_error (objs σ) id = Some (Val t (LSlot k)).
Proof. intros H E. destruct (vi_var _ H _ _ E) as (_ & _ & t & k & Hn & _). exists t, k. split; auto. unfold gvar. now rewrite E, Hn. Qed.
Lemma VI_gvar_ok σ x t k : VI σ -> gvar σ x = Some (t, k) -> x <> lit "pi" /\ x <> lit "e" /\ t <> TVoid /\ k < nslot σ /\ ret_slot σ <> Some k.
Proof.
  intros H E. destruct (gvar_some _ _ _ _ E) as (id & E1 & E2). destruct (vi_var _ H _ _ E1) as (A & B & t' & k' & C & D & F & I). rewrite E2 in C. injection C as <- <-. auto.
Qed.

(** What the global table of variables satisfies *)
Record Gok (G : text -> option (vty * nat)) (rs : option nat) : Prop := {
  g_inj : forall x y t t' k, G x = Some (t, k) -> G y = Some (t', k) -> x = y;
  g_ret : forall x t k, G x = Some (t, k) -> rs <> Some k;
  g_pi : G (lit "pi") = None;
  g_e : G (lit "e") = None }.

Section S.
Context {V W : Type}.
Variable oper : optok -> vty -> list V -> option V.
Variable conv : vty -> vty -> V -> option V.
Variable ext : text -> W -> list V -> W * V.
Variable konst_val : konst -> V.
Variable llvm19 : bool.
Variable op_fun : optok -> vty -> option vty.
Variable fsig : text -> option (list vty * vty).
Variable args : list V.
Notation rt := (@rt V W).
Notation env := (@env V).
Notation prim_sem := (ir_prim oper conv).
Notation opval := (@Ir_Model.opval V W konst_val args).
Notation exec_inst := (exec_inst prim_sem (total ext) konst_val args).
Notation eval := (eval oper conv (total ext) konst_val llvm19 op_fun fsig).
Notation exec_expr := (exec_expr oper conv (total ext) konst_val llvm19 op_fun fsig).
Notation apply_op := (apply_op oper conv llvm19 op_fun).
Notation execi := (execi oper conv ext konst_val args).
Notation den := (@den V W konst_val args).
Notation computed := (@computed V W oper conv ext konst_val args).
Notation Menv := (@Menv V W konst_val args).
Notation P1 := (P1 oper conv ext konst_val llvm19 op_fun fsig args).
Notation build_expr := (build_expr llvm19 op_fun fsig).
Notation bnode := (build_node llvm19 op_fun fsig).
Notation bnodes := (build_nodes bnode).

(** Environments and stack slots *)
Definition MG (G : text -> option (vty * nat)) (s : rt) (ρ : env) : Prop :=
  forall x, match G x with
            | Some (t, k) => (exists a, ρ x = Some (t, a) /\ slots s k = Some (Some a)) \/ (ρ x = None /\ slots s k = None)
            | None => ρ x = None
            end.
Lemma MG_Menv X0 G σ s ρ rs : VI σ -> Gok G rs -> gsub σ G -> MG G s ρ -> Menv X0 σ s ρ.
Proof.
  intros HV HG Hs HM x _. destruct (find_text (named σ) x) as [id|] eqn:E.
  - destruct (VI_gvar _ _ _ HV E) as (t & k & Hg & Hn). destruct (VI_gvar_ok _ _ _ _ HV Hg) as (A & B & _). exists (Val t (LSlot k)). repeat (split; [assumption|]).
    specialize (HM x). rewrite (Hs _ _ Hg) in HM. cbn. destruct HM as [(a & -> & ->)|[ -> -> ]]; reflexivity.
  - specialize (HM x). intros [ -> | -> ]; [rewrite (g_pi _ _ HG) in HM|rewrite (g_e _ _ HG) in HM]; exact HM.
Qed.
Lemma MG_slots G s s' ρ : slots s' = slots s -> MG G s ρ -> MG G s' ρ.
Proof. intros E H x. rewrite E. apply H. Qed.
Lemma MG_store G rs s s' ρ x t k a : Gok G rs -> G x = Some (t, k) -> (forall j, j <> k -> slots s' j = slots s j) -> slots s' k = Some (Some a) ->
  MG G s ρ -> MG G s' (set_var ρ x t a).
Proof.
  intros HG Hx Ho Hk H y. unfold set_var. destruct (text_eqb y x) eqn:E.
  - apply text_eqb_eq in E. subst. rewrite Hx. left. eauto.
  - specialize (H y). destruct (G y) as [[t' k']|] eqn:Ey; [|exact H]. rewrite Ho; [exact H|]. intros ->. rewrite (g_inj _ _ HG _ _ _ _ _ Ey Hx), text_eqb_refl in E. discriminate.
Qed.

(** Straight-line code with declarations and assignments *)
Record sext (xs : list inst) (σ σ' : cg) (ds : list text) : Prop := {
  s_blks : blks σ' = emit_at (cur σ) (map Ins xs) (blks σ);
  s_cur : cur σ' = cur σ;
  s_loops : loops σ' = loops σ;
  s_exit : exit_b σ' = exit_b σ;
  s_rty : ret_ty σ' = ret_ty σ;
  s_rslot : ret_slot σ' = ret_slot σ;
  s_vi : VI σ';
  s_gsub : gsub σ (gvar σ');
  s_new : forall x, find_text (named σ') x <> None -> find_text (named σ) x <> None \/ In x ds }.
Lemma gvar_pext xs σ σ' x p : pext xs σ σ' -> gvar σ x = Some p -> gvar σ' x = Some p.
Proof.
  intros X H. destruct p as [t k]. destruct (gvar_some _ _ _ _ H) as (id & E1 & E2). unfold gvar. now rewrite (x_named _ _ _ X), E1, (pext_nth _ _ _ _ _ X E2).
Qed.
Lemma gvar_pext_eq xs σ σ' x : VI σ -> pext xs σ σ' -> gvar σ' x = gvar σ x.
Proof.
  intros HV X. unfold gvar. rewrite (x_named _ _ _ X). destruct (find_text (named σ) x) as [id|] eqn:E; [|reflexivity].
  destruct (vi_var _ HV _ _ E) as (_ & _ & t & k & Hn & _). now rewrite Hn, (pext_nth _ _ _ _ _ X Hn).
Qed.
Lemma VI_pext xs σ σ' : VI σ -> objs_ok σ' -> pext xs σ σ' -> VI σ'.
Proof.
  intros HV Hok X. constructor; [assumption| | |].
  - intros x id E. rewrite (x_named _ _ _ X) in E. destruct (vi_var _ HV _ _ E) as (A & B & t & k & C & D & F & I). repeat (split; [assumption|]). exists t, k.
    rewrite (x_nslot _ _ _ X), (x_rslot _ _ _ X). repeat (split; [eauto using pext_nth|]). assumption.
  - intros x y t t' k. rewrite !(gvar_pext_eq _ _ _ _ HV X). apply (vi_inj _ HV).
  - intros k. rewrite (x_nslot _ _ _ X), (x_rslot _ _ _ X). apply (vi_ret _ HV).
Qed.
Lemma pext_sext xs σ σ' : VI σ -> objs_ok σ' -> pext xs σ σ' -> sext xs σ σ' [].
Proof.
  intros HV Hok X. constructor; try apply X.
  - eapply VI_pext; eauto.
  - intros x p. now apply (gvar_pext xs).
  - intros x. rewrite (x_named _ _ _ X). auto.
Qed.
Lemma sext_trans xs ys σ σ1 σ2 d1 d2 : sext xs σ σ1 d1 -> sext ys σ1 σ2 d2 -> sext (xs ++ ys) σ σ2 (d1 ++ d2).
Proof.
  intros A B. constructor.
  - rewrite (s_blks _ _ _ _ B), (s_cur _ _ _ _ A), (s_blks _ _ _ _ A), emit_at_app, map_app. reflexivity.
  - rewrite (s_cur _ _ _ _ B). apply A.
  - rewrite (s_loops _ _ _ _ B). apply A.
  - rewrite (s_exit _ _ _ _ B). apply A.
  - rewrite (s_rty _ _ _ _ B). apply A.
  - rewrite (s_rslot _ _ _ _ B). apply A.
  - apply B.
  - intros x p H. apply (s_gsub _ _ _ _ B), (s_gsub _ _ _ _ A), H.
  - intros x H. destruct (s_new _ _ _ _ B _ H) as [H1|H1]; [|right; apply in_or_app; auto]. destruct (s_new _ _ _ _ A _ H1); [auto|right; apply in_or_app; auto].
Qed.

(** *** Stores *)
Lemma put2_emit i j σ : put i (put j σ) = set_blks (emit_at (cur σ) [j; i] (blks σ)) σ.
Proof. rewrite !put_emit. cbn. rewrite emit_at_app. reflexivity. Qed.

(** The effect of a statement on the state *)
Definition agrees (G : text -> option (vty * nat)) (rs : option nat) (xs : list inst) (s : rt) (r : outcome (env * W)) : Prop :=
  match r with
  | Ret (ρ', w') => exists s', execi xs s = Ret s' /\ MG G s' ρ' /\ world s' = w' /\ (forall k, rs = Some k -> slots s' k = slots s k)
  | UB => execi xs s = UB
  | _ => False
  end.

(** An operator after the postfix form of a computed expression *)
Lemma P1_op X0 ns nv ev op l σ id σ' : P1 X0 ns nv ev -> objs_ok σ -> nok σ -> operand_count op = Some 2 ->
  (do! (es, σ) <- bnodes (ns ++ [N_op op]) σ; eval_stack llvm19 op_fun (E_val l :: es) σ) = Ret (id, σ') ->
  exists r σ2 xs v, binary_op_ir op_fun op l r σ2 = Ret (id, σ') /\
    pext xs σ σ2 /\ objs_ok σ2 /\ nth_error (objs σ2) r = Some v /\ (nv = true -> computed xs v) /\
    forall ρ s, Menv X0 σ s ρ ->
      (execi xs s = UB /\ ev ρ (world s) = UB) \/
      (exists s', execi xs s = Ret s' /\ keeps (nreg σ) s s' /\ ev ρ (world s) = do! a <- den s' v; Ret (world s', (v_ty v, a))).
Proof.
  intros HP Hok Hnk Hop H. destruct (bnodes (ns ++ [N_op op]) σ) as [[es σ1]| | |] eqn:E; try discriminate. cbn [obind] in H.
  destruct (HP [N_op op] σ es σ1 Hok Hnk E) as (t & σ1' & es2 & xs & -> & Eb & X & O1 & Hvt & Hnv & Sem). cbn in Eb. injection Eb as <- <-.
  unfold eval_stack in H. cbn [eval_nodes eval_node obind] in H. rewrite (eval_nodes_post _ _ _ _ _ _ _ Hvt) in H.
  destruct (second llvm19 op_fun t σ1') as [[r σ2]| | |] eqn:E2; try discriminate. cbn [obind eval_nodes eval_node] in H. rewrite Hop in H.
  destruct (binary_op_ir op_fun op l r σ2) as [[res σ3]| | |] eqn:E3; try discriminate. cbn [obind] in H. injection H as -> ->.
  exists r, σ2. pose proof (second_nerr oper conv ext konst_val llvm19 op_fun args _ _ _ _ O1 Hvt E2) as HN.
  destruct (second_sem2 oper conv ext konst_val llvm19 op_fun args _ _ _ _ O1 Hvt E2) as (ys & v & Y & O2 & Hv & R & C).
  exists (xs ++ ys), v. split; [assumption|]. split; [eapply pext_trans; eauto|]. split; [assumption|]. split; [assumption|].
  split. { intros Hn. specialize (Hnv Hn). destruct t; try (apply computed_app, C). destruct C as (-> & -> & ->). rewrite app_nil_r. destruct Hnv as (v' & Hv' & Hc). rewrite Hv in Hv'. injection Hv' as <-. exact Hc. }
  intros ρ s HM. rewrite execi_app.
  destruct (Sem ρ s HM) as [[B1 B2]|(s1 & E1 & K1 & G1)]; [left; rewrite B1; auto|]. rewrite E1. cbn [obind].
  destruct (R s1) as [[B2 B3]|(s2 & E4 & K2 & W2 & G2)]; cbn beta in *.
  - left. split; [assumption|]. rewrite G1, B3. reflexivity.
  - right. exists s2. split; [assumption|]. split; [eapply keeps_trans; [apply (x_nreg _ _ _ X)| |]; eauto|]. rewrite G1, G2, W2. destruct (den s2 v); reflexivity.
Qed.

Lemma store_sem l r σ σ' t k v : objs_ok σ -> nth_error (objs σ) l = Some (Val t (LSlot k)) -> t <> TVoid -> nth_error (objs σ) r = Some v ->
  copy_from l r σ = Ret σ' ->
  v_ty v = t /\ exists ys, pext ys σ σ' /\ objs_ok σ' /\
    forall s, (execi ys s = UB /\ (den s v = UB \/ slots s k = None)) \/
      (exists s' a, execi ys s = Ret s' /\ den s v = Ret a /\ slots s k <> None /\ slots s' k = Some (Some a) /\ (forall j, j <> k -> slots s' j = slots s j) /\ world s' = world s).
Proof.
  intros Hok Hl Ht Hr H. unfold copy_from, obj in H. rewrite Hl, Hr in H. cbn [obind v_ty v_loc] in H.
  destruct (vty_eqb t TVoid) eqn:E1; [apply vty_eqb_eq in E1; contradiction|]. destruct (vty_eqb t (v_ty v)) eqn:E2; [|discriminate]. apply vty_eqb_eq in E2. split; [auto|]. cbn [negb] in H.
  destruct (load_value r σ) as [[o σ1]| | |] eqn:EL; try discriminate. cbn [obind] in H. injection H as <-.
  destruct (load_sem oper conv ext konst_val args _ _ _ _ _ Hok Hr EL) as (xs & X & O1 & Q & Ho & R).
  exists (xs ++ [IStore o k]). rewrite put_emit. split. { eapply pext_trans; [exact X|]. constructor; cbn; auto. exists []. now rewrite app_nil_r. }
  split. { exact O1. }
  intros s. rewrite execi_app. destruct (R s) as [[B1 B2]|(s1 & E & K & Wd & G)]; cbn beta in *.
  - left. rewrite B1. auto.
  - rewrite E. cbn [obind Codegen_Expr.execi Ir_Model.exec_inst]. rewrite G. destruct (den_cases konst_val args s v) as [Ed|(a & Ed)]; rewrite Ed; cbn [obind]; [left; auto|].
    destruct K as [Ks _]. rewrite Ks. destruct (slots s k) as [c|] eqn:Ek; [|left; auto]. right. eexists _, a. split; [reflexivity|]. split; [reflexivity|]. split; [discriminate|].
    cbn. unfold upd. rewrite Nat.eqb_refl. split; [reflexivity|]. split; [|assumption]. intros j Hj. destruct (Nat.eqb_spec j k); [contradiction|reflexivity].
Qed.

(** auto x = a *)
Lemma declare_sem x a σ id σ' : pure a = true -> is_var a = false -> existsb (text_eqb x) (reads a) = false -> VI σ ->
  find_text (named σ) x = None -> x <> lit "pi" -> x <> lit "e" ->
  build_rpn llvm19 op_fun fsig (emitE (EBin OP_ASSIGN (EDef x) a)) σ = Ret (id, σ') ->
  exists xs, sext xs σ σ' [x] /\
    forall G ρ s, Gok G (ret_slot σ) -> gsub σ' G -> MG G s ρ -> agrees G (ret_slot σ) xs s (exec_expr ρ (world s) (EBin OP_ASSIGN (EDef x) a)).
Proof.
  intros Hp Hv Hx HV Hfr Hpi He H. unfold build_rpn, build_rpn_with in H. cbn [emitE app build_nodes build_node] in H. unfold new_void, new_value in H. cbn [named set_objs] in H. rewrite Hfr in H. cbn [obind] in H.
  set (σ0 := set_named ((x, length (objs σ)) :: named σ) (set_objs (objs σ ++ [Val TVoid LNone]) σ)) in *.
  destruct (bnodes (emitE a ++ [N_op OP_ASSIGN]) σ0) as [[es σ1]| | |] eqn:E; try discriminate. cbn [obind] in H.
  assert (objs_ok σ0) as O0. { unfold objs_ok. cbn. apply Forall_app. split; [apply HV|repeat constructor]. }
  assert (nok σ0) as N0.
  { intros y i Ei. cbn in Ei. cbn [objs σ0 set_named set_objs]. rewrite app_length. cbn [length]. destruct (text_eqb x y); [injection Ei as <-; lia|]. pose proof (VI_nok _ HV _ _ Ei). lia. }
  destruct (P1_op (fun y => y <> x) (emitE a) (negb (is_var a)) (fun ρ w => eval ρ w a) OP_ASSIGN (length (objs σ)) σ0 id σ') as (r & σ2 & xs & v & HB & X & O2 & Hr & Hc & Sem); auto.
  { apply pure_P1; auto. apply Forall_forall. intros y Hy ->. assert (existsb (text_eqb x) (reads a) = true) by (apply existsb_exists; exists x; split; auto using text_eqb_refl). congruence. }
  { rewrite E. exact H. }
  rewrite Hv in Hc. destruct (Hc eq_refl) as (o & Hlo & Hcomp). clear Hc E H.
  unfold binary_op_ir in HB. cbn [plain_op] in HB. replace (optok_eqb OP_ASSIGN OP_ASSIGN) with true in HB by reflexivity.
  destruct (x_objs _ _ _ X) as (os & EO). cbn [objs σ0 set_named set_objs] in EO.
  assert (nth_error (objs σ2) (length (objs σ)) = Some (Val TVoid LNone)) as Hl.
  { rewrite EO, <- app_assoc. rewrite nth_error_app2, Nat.sub_diag by lia. reflexivity. }
  unfold copy_from, obj in HB. rewrite Hl, Hr in HB. cbn [obind v_ty v_loc] in HB. replace (vty_eqb TVoid TVoid) with true in HB by reflexivity. rewrite Hlo in HB.
  destruct (vty_eqb (v_ty v) TVoid) eqn:Etv; [discriminate|]. apply vty_eqb_neq in Etv. cbn [new_slot obind] in HB. rewrite put2_emit in HB. injection HB as <- <-.
  set (k := nslot σ2) in *. assert (k = nslot σ) as Ek by (unfold k; rewrite (x_nslot _ _ _ X); reflexivity).
  set (O' := set_nth (length (objs σ)) (Val (v_ty v) (LSlot k)) (objs σ2)) in *.
  assert (length (objs σ) < length (objs σ2)) as Hlen by (eapply nth_error_lt; eauto).
  assert (forall i, i <> length (objs σ) -> nth_error O' i = nth_error (objs σ2) i) as HO' by (intros i Hi; apply set_nth_other; auto).
  assert (nth_error O' (length (objs σ)) = Some (Val (v_ty v) (LSlot k))) as HOx by (apply set_nth_same; auto).
  match goal with |- context [sext _ _ ?s _] => set (σ' := s) end.
  assert (named σ' = (x, length (objs σ)) :: named σ) as Enm by (cbn; rewrite (x_named _ _ _ X); reflexivity).
  assert (objs σ' = O') as Eob by reflexivity.
  assert (gvar σ' x = Some (v_ty v, k)) as Gx. { unfold gvar. rewrite Enm. cbn [find_text]. rewrite text_eqb_refl. rewrite Eob, HOx. reflexivity. }
  assert (forall y, y <> x -> find_text (named σ') y = find_text (named σ) y) as Gn.
  { intros y Hy. rewrite Enm. cbn [find_text]. destruct (text_eqb x y) eqn:Ey; [apply text_eqb_eq in Ey; congruence|]. reflexivity. }
  assert (forall y i, find_text (named σ) y = Some i -> nth_error O' i = nth_error (objs σ) i) as Gi.
  { intros y i Hi. pose proof (VI_nok _ HV _ _ Hi). rewrite HO' by lia. rewrite EO, <- app_assoc. apply nth_error_app1. assumption. }
  assert (forall y, y <> x -> gvar σ' y = gvar σ y) as Gy.
  { intros y Hy. unfold gvar. rewrite (Gn _ Hy), Eob. destruct (find_text (named σ) y) as [i|] eqn:Ei; [|reflexivity]. now rewrite (Gi _ _ Ei). }
  exists (xs ++ [IAlloca k; IStore o k]). split.
  - constructor.
    + cbn. rewrite (x_cur _ _ _ X), (x_blks _ _ _ X), emit_at_app, map_app. reflexivity.
    + cbn. apply X.
    + cbn. apply X.
    + cbn. apply X.
    + cbn. apply X.
    + cbn. apply X.
    + constructor.
      * unfold objs_ok. rewrite Eob. cbn [nreg σ' set_blks set_objs set_nslot]. apply Forall_forall. intros u Hu. apply In_nth_error in Hu as (i & Hi). destruct (Nat.eq_dec i (length (objs σ))) as [->|Hne].
        -- rewrite HOx in Hi. injection Hi as <-. exact I.
        -- rewrite HO' in Hi by auto. eapply objs_nth; eauto.
      * intros y i Hi. assert (nslot σ' = S k) as En by reflexivity. assert (ret_slot σ' = ret_slot σ) as Er by (cbn; rewrite (x_rslot _ _ _ X); reflexivity). rewrite En, Er, Eob.
        destruct (text_eqb x y) eqn:Ey.
        -- apply text_eqb_eq in Ey. subst y. rewrite Enm in Hi. cbn [find_text] in Hi. rewrite text_eqb_refl in Hi. injection Hi as <-. repeat (split; [assumption|]). exists (v_ty v), k. repeat (split; [auto|]).
           intros Hrs. apply (vi_ret _ HV) in Hrs. lia.
        -- rewrite Gn in Hi by (intros ->; rewrite text_eqb_refl in Ey; discriminate). destruct (vi_var _ HV _ _ Hi) as (A & B & t & k' & C & D & F & I). repeat (split; [assumption|]). exists t, k'.
           rewrite (Gi _ _ Hi). split; [assumption|]. split; [assumption|]. split; [lia|assumption].
      * assert (forall y t, y <> x -> gvar σ' y = Some (t, k) -> False) as Hf. { intros y t Hy. rewrite (Gy _ Hy). intros Hg. destruct (VI_gvar_ok _ _ _ _ HV Hg) as (_ & _ & _ & Hlt & _). lia. }
        intros y z t t' k' Hy Hz. destruct (text_eqb y x) eqn:Ey; destruct (text_eqb z x) eqn:Ez.
        -- apply text_eqb_eq in Ey, Ez. congruence.
        -- apply text_eqb_eq in Ey. subst y. rewrite Gx in Hy. injection Hy as _ <-. exfalso. eapply Hf; [|exact Hz]. intros ->. rewrite text_eqb_refl in Ez. discriminate.
        -- apply text_eqb_eq in Ez. subst z. rewrite Gx in Hz. injection Hz as _ <-. exfalso. eapply Hf; [|exact Hy]. intros ->. rewrite text_eqb_refl in Ey. discriminate.
        -- rewrite Gy in Hy by (intros ->; rewrite text_eqb_refl in Ey; discriminate). rewrite Gy in Hz by (intros ->; rewrite text_eqb_refl in Ez; discriminate). exact (vi_inj _ HV _ _ _ _ _ Hy Hz).
      * intros j Hj. cbn in Hj. rewrite (x_rslot _ _ _ X) in Hj. apply (vi_ret _ HV) in Hj. change (j < S k). lia.
    + intros y p Hy. rewrite Gy; [assumption|]. intros ->. unfold gvar in Hy. rewrite Hfr in Hy. discriminate.
    + intros y Hy. destruct (text_eqb x y) eqn:Ey. { right. left. now apply text_eqb_eq. } left. rewrite <- Gn; [assumption|]. intros ->. rewrite text_eqb_refl in Ey. discriminate.
  - intros G ρ s HG Hs HM.
    assert (G x = Some (v_ty v, k)) as HGx by (apply Hs; exact Gx).
    assert (Menv (fun y => y <> x) σ0 s ρ) as HMe.
    { intros y Hy. cbn [named σ0 set_named find_text]. destruct (text_eqb x y) eqn:Ey; [apply text_eqb_eq in Ey; congruence|].
      assert (gsub σ G) as HsG. { intros z p Hz. apply Hs. rewrite Gy; [assumption|]. intros ->. unfold gvar in Hz. rewrite Hfr in Hz. discriminate. }
      pose proof (MG_Menv (fun _ => True) _ _ _ _ _ HV HG HsG HM y I) as HH. destruct (find_text (named σ) y) as [i|] eqn:Ei; [|exact HH].
      destruct HH as (u & Hu & HH). exists u. split; [|exact HH]. cbn [objs σ0 set_named set_objs]. rewrite nth_error_app1; auto. eapply nth_error_lt; eauto. }
    cbn [Codegen_Spec.exec_expr]. unfold agrees. rewrite execi_app. destruct (Sem ρ s HMe) as [[B1 B2]|(s1 & E1 & K1 & G1)].
    + rewrite B2, B1. reflexivity.
    + rewrite E1. destruct (Hcomp _ _ E1) as (b & Hb). rewrite G1, Hb. cbn [obind]. destruct (vty_eqb (v_ty v) TVoid) eqn:E2; [apply vty_eqb_eq in E2; contradiction|].
      cbn [Codegen_Expr.execi Ir_Model.exec_inst obind]. unfold Codegen_Expr.den in Hb. rewrite Hlo in Hb.
      assert (opval (Rt (regs s1) (upd (slots s1) k (Some None)) (world s1)) o = Ret b) as ->. { destruct o; exact Hb. }
      cbn [obind slots]. unfold upd at 1. rewrite Nat.eqb_refl. cbn [obind]. eexists. split; [reflexivity|]. cbn [world slots]. destruct K1 as [Ks _].
      assert (forall j, j <> k -> upd (upd (slots s1) k (Some None)) k (Some (Some b)) j = slots s j) as Ho.
      { intros j Hj. unfold upd. destruct (Nat.eqb_spec j k); [contradiction|]. now rewrite Ks. }
      split; [|split; [reflexivity|]].
      * eapply (MG_store G _ s); eauto. cbn. unfold upd. rewrite Nat.eqb_refl. reflexivity.
      * intros j Hj. apply Ho. intros ->. apply (g_ret _ _ HG _ _ _ HGx Hj).
Qed.

(** x = a *)
Lemma assign_sem x a σ id σ' : pure a = true -> VI σ ->
  build_rpn llvm19 op_fun fsig (emitE (EBin OP_ASSIGN (EVar x) a)) σ = Ret (id, σ') ->
  exists xs, sext xs σ σ' [] /\
    forall G ρ s, Gok G (ret_slot σ) -> gsub σ' G -> MG G s ρ -> agrees G (ret_slot σ) xs s (exec_expr ρ (world s) (EBin OP_ASSIGN (EVar x) a)).
Proof.
  intros Hp HV H. unfold build_rpn, build_rpn_with in H. cbn [emitE app build_nodes build_node] in H. unfold get_local_var in H.
  destruct (find_text (named σ) x) as [l|] eqn:Ex.
  2:{ exfalso. assert (exists k σ0, new_value (TNum F64) (LVal (OConst k)) σ = (length (objs σ), σ0) /\
        (do! (es, σ) <- bnodes (emitE a ++ [N_op OP_ASSIGN]) σ0; eval_stack llvm19 op_fun (E_val (length (objs σ0) - 1) :: es) σ) = Ret (id, σ')) as (k & σ0 & En & H0).
      { destruct (text_eqb x (lit "pi")); [exists KPi|destruct (text_eqb x (lit "e")); [exists KE|discriminate H]];
          unfold new_value in *; eexists; (split; [reflexivity|]); cbn [obind objs set_objs] in *; rewrite app_length; cbn [length]; replace (length (objs σ) + 1 - 1) with (length (objs σ)) by lia;
          match type of H with context [bnodes ?a ?b] => destruct (bnodes a b) as [[es σ1]| | |]; try discriminate; exact H end. }
      destruct (new_value_pext _ (LVal (OConst k)) _ _ _ (vi_ok _ HV) I En) as (X0 & O0 & Hv0).
      assert (length (objs σ0) - 1 = length (objs σ)) as El by (unfold new_value in En; injection En as <-; cbn; rewrite app_length; cbn; lia). rewrite El in H0.
      destruct (P1_op (fun _ => True) (emitE a) (negb (is_var a)) (fun ρ w => eval ρ w a) OP_ASSIGN (length (objs σ)) σ0 id σ') as (r & σ2 & xs & v & HB & X & O2 & Hr & _); auto.
      { apply pure_P1; auto. apply Forall_forall. auto. } { eapply nok_pext; [exact X0|]. now apply VI_nok. }
      unfold binary_op_ir in HB. cbn [plain_op] in HB. replace (optok_eqb OP_ASSIGN OP_ASSIGN) with true in HB by reflexivity.
      unfold copy_from, obj in HB. rewrite (pext_nth _ _ _ _ _ X Hv0), Hr in HB. cbn [obind v_ty v_loc] in HB. replace (vty_eqb (TNum F64) TVoid) with false in HB by reflexivity. destruct (negb _); discriminate HB. }
  cbn [obind] in H. destruct (VI_gvar _ _ _ HV Ex) as (t & k & Hg & Hl). destruct (VI_gvar_ok _ _ _ _ HV Hg) as (_ & _ & Ht & Hk & Hrk).
  destruct (P1_op (fun _ => True) (emitE a) (negb (is_var a)) (fun ρ w => eval ρ w a) OP_ASSIGN l σ id σ') as (r & σ2 & xs & v & HB & X & O2 & Hr & _ & Sem); auto.
  { apply pure_P1; auto. apply Forall_forall. auto. } { apply HV. } { now apply VI_nok. }
  { match type of H with context [bnodes ?a ?b] => destruct (bnodes a b) as [[es σ1]| | |]; try discriminate; exact H end. }
  unfold binary_op_ir in HB. cbn [plain_op] in HB. replace (optok_eqb OP_ASSIGN OP_ASSIGN) with true in HB by reflexivity.
  destruct (copy_from l r σ2) as [σ3| | |] eqn:EC; try discriminate. cbn [obind] in HB. injection HB as <- <-.
  destruct (store_sem _ _ _ _ _ _ _ O2 (pext_nth _ _ _ _ _ X Hl) Ht Hr EC) as (Ety & ys & Y & O3 & St).
  assert (pext (xs ++ ys) σ σ3) as XY by (eapply pext_trans; eauto). exists (xs ++ ys). split; [now apply pext_sext|].
  intros G ρ s HG Hs HM. assert (gsub σ G) as HsG. { intros z p Hz. apply Hs. eapply gvar_pext; eauto. }
  assert (G x = Some (t, k)) as HGx by (apply HsG; exact Hg).
  cbn [Codegen_Spec.exec_expr]. unfold agrees. rewrite execi_app. destruct (Sem ρ s (MG_Menv _ _ _ _ _ _ HV HG HsG HM)) as [[B1 B2]|(s1 & E1 & K1 & G1)].
  - rewrite B2, B1. reflexivity.
  - rewrite E1, G1. cbn [obind]. destruct K1 as [Ks _]. pose proof (HM x) as Hx. rewrite HGx in Hx. destruct (St s1) as [[B1 B2]|(s2 & b & E2 & Eb & Hne & Hk2 & Ho & Hw)].
    + rewrite B1. destruct (den_cases konst_val args s1 v) as [Ed|(b & Ed)]; rewrite Ed; cbn [obind]; [reflexivity|]. destruct B2 as [B2|B2]; [congruence|]. rewrite Ks in B2.
      destruct Hx as [(c & _ & Hx)|[Hx _]]; [congruence|]. rewrite Hx. reflexivity.
    + rewrite Eb. cbn [obind]. rewrite Ks in Hne. destruct Hx as [(c & Hx & _)|[_ Hx]]; [|contradiction]. rewrite Hx. cbn [defined obind]. rewrite Ety, vty_eqb_refl. rewrite E2. exists s2. split; [reflexivity|].
      rewrite Ks in Ho. split; [eapply MG_store; eauto|]. split; [assumption|]. intros j Hj. apply Ho. intros ->. contradiction.
Qed.

(** x op= a *)
Lemma cast_loc l t σ l' σ1 : cast_to l t σ = Ret (l', σ1) -> (l' = l /\ σ1 = σ) \/ exists n o, t = TNum n /\ nth_error (objs σ1) l' = Some (Val (TNum n) (LVal o)).
Proof.
  unfold cast_to, obj. intros H. destruct (nth_error (objs σ) l) as [v|]; [|discriminate]. cbn [obind] in H. destruct (vty_eqb (v_ty v) t). { injection H as <- <-. auto. }
  destruct (negb (can_cast (v_ty v) (Some t))); [discriminate|]. destruct t as [| |n]; try discriminate. destruct (vty_eqb (v_ty v) TVoid); [discriminate|].
  destruct (load_value l σ) as [[o σ2]| | |]; try discriminate. cbn [obind new_reg] in H. unfold new_value in H. injection H as <- <-. right. exists n, (OReg (nreg σ2)). split; [reflexivity|].
  rewrite put_emit. cbn. rewrite nth_error_app2, Nat.sub_diag by lia. reflexivity.
Qed.
Lemma compound_split op op' l r σ id σ' vl vr : objs_ok σ -> In (op, op') compound ->
  nth_error (objs σ) l = Some vl -> nth_error (objs σ) r = Some vr ->
  binary_op_ir op_fun op l r σ = Ret (id, σ') ->
  exists res σ1, binary_op_ir op_fun op' l r σ = Ret (res, σ1) /\ copy_from l res σ1 = Ret σ'.
Proof.
  intros Hok Hin Hl Hr H.
  assert (plain_op op = (op', true) /\ plain_op op' = (op', false) /\ optok_eqb op' OP_ASSIGN = false /\ operand_count op' = Some 2) as (P1' & P2' & P3' & P4').
  { cbn [compound In] in Hin. repeat (destruct Hin as [Hin|Hin]; [injection Hin as <- <-; repeat split|]). destruct Hin. }
  unfold binary_op_ir in H |- *. rewrite P1', P3' in H. rewrite P2', P3'. unfold obj in *. rewrite Hl, Hr in *. cbn [obind] in *.
  match type of H with obind ?e _ = _ => destruct e as [[[[t l'] r'] σ1]| | |] eqn:EP; try discriminate end. cbn [obind] in *.
  destruct (vty_eqb t TVoid) eqn:Et; [discriminate|]. apply vty_eqb_neq in Et.
  destruct (load_value l' σ1) as [[lo σ2]| | |] eqn:L1; try discriminate. cbn [obind] in *.
  destruct (load_value r' σ2) as [[ro σ3]| | |] eqn:L2; try discriminate. cbn [obind] in *.
  destruct (put_op _ _ _ _ _ _ _) as [[res σ4]| | |] eqn:PO; try discriminate. cbn [obind] in *.
  destruct (copy_from l' res σ4) as [σ5| | |] eqn:EC; try discriminate. cbn [obind] in H. injection H as <- <-.
  exists res, σ4. split; [reflexivity|]. assert (l' = l) as ->; [|exact EC].
  destruct (vty_eqb (v_ty vl) (v_ty vr)) eqn:Eeq; [congruence|].
  destruct (pick2 _ _ l r σ t l' r' σ1 Hl Hr) as [ECL _]; [rewrite Eeq; exact EP|assumption|].
  destruct (normalize [v_ty vl; v_ty vr]) as [t'| | |]; try discriminate. cbn [obind] in EP.
  destruct (cast_to l t' σ) as [[l2 σa]| | |] eqn:C1; try discriminate. cbn [obind] in EP.
  destruct (cast_to r t' σa) as [[r2 σb]| | |] eqn:C2; try discriminate. cbn [obind] in EP. injection EP as -> -> -> ->.
  destruct (cast_loc _ _ _ _ _ C1) as [[-> _]|(n & o & -> & Hn)]; [reflexivity|]. exfalso.
  destruct (cast_list_sem oper conv ext konst_val args (TNum n) [l; r] σ [l'; r'] σ1 [vl; vr]) as (xs & vs' & X & O1 & HI & _); auto.
  destruct (cast_sem oper conv ext konst_val args _ _ _ _ _ _ Hok Hl C1) as (x1 & v1 & X1 & Oa & Q1 & _).
  destruct (cast_sem oper conv ext konst_val args _ _ _ _ _ _ Oa (pext_nth _ _ _ _ _ X1 Hr) C2) as (x2 & v2 & X2 & Ob & Q2 & _).
  pose proof (pext_nth _ _ _ _ _ X2 Hn) as Hn1.
  destruct (load_sem oper conv ext konst_val args _ _ _ _ _ Ob Hn1 L1) as (y1 & Y1 & Oc & QQ1 & K1 & _).
  assert (nth_error (objs σ2) r' = Some v2) as Q2' by (rewrite QQ1; exact Q2).
  destruct (load_sem oper conv ext konst_val args _ _ _ _ _ Oc Q2' L2) as (y2 & Y2 & Od & QQ2 & K2 & _).
  assert (nth_error (objs σ4) l' = Some (Val (TNum n) (LVal o))) as Hfin.
  { unfold put_op in PO. cbn [new_reg] in PO. assert (exists u, objs σ4 = objs σ3 ++ [u]) as (u & ->).
    { unfold new_value in PO. destruct (bin_builtin op' (TNum n)). { injection PO as <- <-. rewrite put_emit. cbn. eauto. }
      destruct (op_fun op' (TNum n)); [|discriminate]. injection PO as <- <-. rewrite put_emit. cbn. eauto. }
    rewrite QQ2, QQ1. rewrite nth_error_app1; [exact Hn1|]. eapply nth_error_lt; eauto. }
  unfold copy_from, obj in EC. rewrite Hfin in EC. cbn [obind v_ty v_loc] in EC. destruct (nth_error (objs σ4) res) as [u|]; [|discriminate]. cbn [obind] in EC.
  replace (vty_eqb (TNum n) TVoid) with false in EC by reflexivity. destruct (negb _); discriminate EC.
Qed.
Lemma compound_find op : existsb (optok_eqb op) (map fst compound) = true ->
  exists op', In (op, op') compound /\ find (fun p => optok_eqb (fst p) op) compound = Some (op, op').
Proof.
  intros H. apply existsb_exists in H as (o & Hin & E). apply optok_eqb_eq in E. subst o. cbn [compound map fst In] in Hin.
  repeat (destruct Hin as [<-|Hin]; [eexists; split; [|reflexivity]; cbn; auto 6|]). destruct Hin.
Qed.
Lemma compound_sem op x a σ id σ' : pure a = true -> existsb (optok_eqb op) (map fst compound) = true -> VI σ ->
  build_rpn llvm19 op_fun fsig (emitE (EBin op (EVar x) a)) σ = Ret (id, σ') ->
  exists xs, sext xs σ σ' [] /\
    forall G ρ s, Gok G (ret_slot σ) -> gsub σ' G -> MG G s ρ -> agrees G (ret_slot σ) xs s (exec_expr ρ (world s) (EBin op (EVar x) a)).
Proof.
  intros Hp Hop HV H. destruct (compound_find _ Hop) as (op' & Hin & Hfind).
  assert (operand_count op = Some 2) as Har. { cbn [compound In] in Hin. repeat (destruct Hin as [Hin|Hin]; [injection Hin as <- <-; reflexivity|]). destruct Hin. }
  assert (plain_op op' = (op', false) /\ op' <> OP_ASSIGN /\ operand_count op' = Some 2) as (P2' & P3' & P4').
  { cbn [compound In] in Hin. repeat (destruct Hin as [Hin|Hin]; [injection Hin as <- <-; repeat split; discriminate|]). destruct Hin. }
  unfold build_rpn, build_rpn_with in H. cbn [emitE app build_nodes build_node] in H. unfold get_local_var in H.
  assert (forall ρ w, exec_expr ρ w (EBin op (EVar x) a) = do! (w, y) <- eval ρ w a; do! (tx, vx) <- defined (ρ x); do! (t, v) <- apply_op op' [(tx, vx); y]; if vty_eqb tx t then Ret (set_var ρ x t v, w) else Err) as Hex.
  { intros ρ w. cbn [compound In] in Hin. repeat (destruct Hin as [Hin|Hin]; [injection Hin as <- <-; reflexivity|]). destruct Hin. }
  destruct (find_text (named σ) x) as [l|] eqn:Ex.
  2:{ exfalso. assert (exists k σ0, new_value (TNum F64) (LVal (OConst k)) σ = (length (objs σ), σ0) /\
        (do! (es, σ) <- bnodes (emitE a ++ [N_op op]) σ0; eval_stack llvm19 op_fun (E_val (length (objs σ0) - 1) :: es) σ) = Ret (id, σ')) as (k & σ0 & En & H0).
      { destruct (text_eqb x (lit "pi")); [exists KPi|destruct (text_eqb x (lit "e")); [exists KE|discriminate H]];
          unfold new_value in *; eexists; (split; [reflexivity|]); cbn [obind objs set_objs] in *; rewrite app_length; cbn [length]; replace (length (objs σ) + 1 - 1) with (length (objs σ)) by lia;
          match type of H with context [bnodes ?a ?b] => destruct (bnodes a b) as [[es σ1]| | |]; try discriminate; exact H end. }
      destruct (new_value_pext _ (LVal (OConst k)) _ _ _ (vi_ok _ HV) I En) as (X0 & O0 & Hv0).
      assert (length (objs σ0) - 1 = length (objs σ)) as El by (unfold new_value in En; injection En as <-; cbn; rewrite app_length; cbn; lia). rewrite El in H0.
      destruct (P1_op (fun _ => True) (emitE a) (negb (is_var a)) (fun ρ w => eval ρ w a) op (length (objs σ)) σ0 id σ') as (r & σ2 & xs & v & HB & X & O2 & Hr & _); auto.
      { apply pure_P1; auto. apply Forall_forall. auto. } { eapply nok_pext; [exact X0|]. now apply VI_nok. }
      pose proof (pext_nth _ _ _ _ _ X Hv0) as Hl2. destruct (compound_split _ _ _ _ _ _ _ _ _ O2 Hin Hl2 Hr HB) as (res & σ3 & HB2 & HC).
      destruct (binary_sem oper conv ext konst_val llvm19 op_fun args _ _ _ _ _ _ _ _ O2 Hl2 Hr P4' P2' P3' HB2) as (ys & u & Y & O3 & Hu & _).
      unfold copy_from, obj in HC. rewrite (pext_nth _ _ _ _ _ Y Hl2), Hu in HC. cbn [obind v_ty v_loc] in HC. replace (vty_eqb (TNum F64) TVoid) with false in HC by reflexivity. destruct (negb _); discriminate HC. }
  cbn [obind] in H. destruct (VI_gvar _ _ _ HV Ex) as (t & k & Hg & Hl). destruct (VI_gvar_ok _ _ _ _ HV Hg) as (_ & _ & Ht & Hk & Hrk).
  destruct (P1_op (fun _ => True) (emitE a) (negb (is_var a)) (fun ρ w => eval ρ w a) op l σ id σ') as (r & σ2 & xs & v & HB & X & O2 & Hr & _ & Sem); auto.
  { apply pure_P1; auto. apply Forall_forall. auto. } { apply HV. } { now apply VI_nok. }
  { match type of H with context [bnodes ?a ?b] => destruct (bnodes a b) as [[es σ1]| | |]; try discriminate; exact H end. }
  pose proof (pext_nth _ _ _ _ _ X Hl) as Hl2. destruct (compound_split _ _ _ _ _ _ _ _ _ O2 Hin Hl2 Hr HB) as (res & σ3 & HB2 & HC).
  destruct (binary_sem oper conv ext konst_val llvm19 op_fun args _ _ _ _ _ _ _ _ O2 Hl2 Hr P4' P2' P3' HB2) as (ys & u & Y & O3 & Hu & R & Cu).
  destruct (Cu I) as (o & Hlo & Hcomp).
  destruct (store_sem _ _ _ _ _ _ _ O3 (pext_nth _ _ _ _ _ Y Hl2) Ht Hu HC) as (Ety & zs & Z & O4 & St).
  assert (pext (xs ++ ys ++ zs) σ σ') as XY by (eapply pext_trans; [eassumption|]; eapply pext_trans; eauto). exists (xs ++ ys ++ zs). split; [now apply pext_sext|].
  intros G ρ s HG Hs HM. assert (gsub σ G) as HsG. { intros z p Hz. apply Hs. eapply gvar_pext; eauto. }
  assert (G x = Some (t, k)) as HGx by (apply HsG; exact Hg).
  rewrite Hex. unfold agrees. rewrite execi_app. destruct (Sem ρ s (MG_Menv _ _ _ _ _ _ HV HG HsG HM)) as [[B1 B2]|(s1 & E1 & K1 & G1)].
  - rewrite B2, B1. reflexivity.
  - rewrite E1, G1. cbn [obind]. rewrite execi_app. destruct K1 as [Ks _]. pose proof (HM x) as Hx. rewrite HGx in Hx.
    assert (den s1 (Val t (LSlot k)) = match ρ x with Some (_, b) => Ret b | None => UB end) as Hdx.
    { cbn. rewrite Ks. destruct Hx as [(c & -> & ->)|[ -> -> ]]; reflexivity. }
    assert ((do! xs <- sq konst_val args s1 [Val t (LSlot k); v]; apply_op op' xs) = do! (tx, vx) <- defined (ρ x); do! b <- den s1 v; apply_op op' [(tx, vx); (v_ty v, b)]) as Hsq.
    { cbn [sq v_ty]. rewrite Hdx. destruct Hx as [(c & -> & _)|[ -> _ ]]; [|reflexivity]. cbn [defined obind]. destruct (den s1 v); reflexivity. }
    destruct (R s1) as [[B1 B2]|(s2 & E2 & K2 & W2 & G2)]; cbn beta in *; rewrite Hsq in *.
    + rewrite B1. cbn [obind]. destruct (den_cases konst_val args s1 v) as [Ed|(b & Ed)]; rewrite Ed in *; cbn [obind] in *; [reflexivity|].
      destruct Hx as [(c & Hx & _)|[Hx _]]; rewrite Hx in *; cbn [defined obind] in *; [|reflexivity]. rewrite B2. reflexivity.
    + rewrite E2. cbn [obind]. destruct (Hcomp _ _ E2) as (c & Hc). rewrite Hc in G2. cbn [obind] in G2. destruct K2 as [Ks2 _].
      destruct (den_cases konst_val args s1 v) as [Ed|(b & Ed)]; rewrite Ed in *; cbn [obind] in *. { destruct (defined (ρ x)) as [[? ?]| | |]; discriminate G2. }
      destruct Hx as [(c' & Hx & Hsk)|[Hx _]]; rewrite Hx in *; cbn [defined obind] in *; [|discriminate G2]. rewrite G2. cbn [obind]. rewrite Ety, vty_eqb_refl.
      destruct (St s2) as [[B1 B2]|(s3 & d & E3 & Ed3 & Hne & Hk2 & Ho & Hw)].
      * exfalso. destruct B2 as [B2|B2]; [congruence|]. rewrite Ks2, Ks in B2. congruence.
      * rewrite Hc in Ed3. injection Ed3 as <-. exists s3. split; [assumption|]. rewrite Ks2, Ks in Ho. split; [eapply MG_store; eauto|]. split; [congruence|]. intros j Hj. apply Ho. intros ->. contradiction.
Qed.
Lemma exec_expr_pure ρ w e : pure e = true -> exec_expr ρ w e = do! (w, _) <- eval ρ w e; Ret (ρ, w).
Proof.
  destruct e as [| | | | | | | | |op a b|]; try reflexivity. intros H. cbn [pure] in H. apply andb_true_iff in H as [H _]. apply andb_true_iff in H as [H _].
  destruct op; try discriminate H; reflexivity.
Qed.
(** *** Expression statements *)
Lemma simple_compound op a b : existsb (optok_eqb op) (map fst compound) = true -> simple_expr (EBin op a b) = true -> exists x, a = EVar x /\ pure b = true.
Proof.
  intros H. apply existsb_exists in H as (y & I & E). apply optok_eqb_eq in E. subst y. cbn [map fst compound] in I.
  repeat (destruct I as [<-|I]; [destruct a; intros Hs; try discriminate Hs; eexists; split; [reflexivity|exact Hs]|]). contradiction.
Qed.
Lemma simple_plain op a b : optok_eqb op OP_ASSIGN = false -> existsb (optok_eqb op) (map fst compound) = false -> simple_expr (EBin op a b) = true -> pure (EBin op a b) = true.
Proof. intros Ea Ec Hs. destruct op; try discriminate Ea; try discriminate Ec; destruct a; try (apply andb_true_iff in Hs; apply Hs); exact Hs. Qed.
Lemma expr_stmt_sem o σ id σ' : simple_expr (denote o) = true -> VI σ ->
  Forall (fun x => find_text (named σ) x = None /\ x <> lit "pi" /\ x <> lit "e") (declares (StExpr (denote o))) ->
  build_expr o σ = Ret (id, σ') ->
  exists xs, sext xs σ σ' (declares (StExpr (denote o))) /\
    forall G ρ s, Gok G (ret_slot σ) -> gsub σ' G -> MG G s ρ -> agrees G (ret_slot σ) xs s (exec_expr ρ (world s) (denote o)).
Proof.
  intros Hs HV HD H.
  assert (pure (denote o) = true -> declares (StExpr (denote o)) = [] -> exists xs, sext xs σ σ' (declares (StExpr (denote o))) /\
    forall G ρ s, Gok G (ret_slot σ) -> gsub σ' G -> MG G s ρ -> agrees G (ret_slot σ) xs s (exec_expr ρ (world s) (denote o))) as Pure.
  { intros Hp ->. destruct (expr_sem oper conv ext konst_val llvm19 op_fun fsig args (fun _ => True) o σ id σ' Hp) as (xs & v & X & O1 & Hv & Hc & Sem); auto.
    all: try (apply Forall_forall; auto; fail); try apply HV; try now apply VI_nok.
    exists xs. split; [now apply pext_sext|]. intros G ρ s HG Hsub HM. assert (gsub σ G) as HsG. { intros z p Hz. apply Hsub. eapply gvar_pext; eauto. }
    rewrite exec_expr_pure by assumption. unfold agrees. destruct (Sem ρ s (MG_Menv _ _ _ _ _ _ HV HG HsG HM)) as [[B1 B2]|(s1 & E1 & [Ks K] & G1)].
    - rewrite B2. assumption.
    - rewrite G1. destruct (is_var (denote o)) eqn:Ei. { destruct (denote o); discriminate. }
      destruct (Hc eq_refl) as (op & Hlo & Hcomp). destruct (Hcomp _ _ E1) as (a & Ha). rewrite Ha. cbn [obind]. exists s1. split; [assumption|]. split; [eapply MG_slots; eauto|].
      split; [reflexivity|]. intros k _. now rewrite Ks. }
  unfold Codegen_Model.build_expr in H. rewrite emit_denote in H. destruct (denote o) as [| | | | | | | | |op a b|] eqn:Eo; try (apply Pure; [cbn [simple_expr] in Hs; apply andb_true_iff in Hs; apply Hs|reflexivity]).
  destruct (optok_eqb op OP_ASSIGN) eqn:Ea.
  - apply optok_eqb_eq in Ea. subst op. destruct a as [| | |x| | |x| | | |]; try (cbn [simple_expr] in Hs; apply andb_true_iff in Hs as [Hs _]; discriminate Hs).
    + apply assign_sem with (id := id); auto.
    + cbn [simple_expr] in Hs. apply andb_true_iff in Hs as [Hs H3]. apply andb_true_iff in Hs as [H1 H2]. apply negb_true_iff in H2, H3.
      inversion HD as [|? ? (D1 & D2 & D3) _]; subst. apply declare_sem with (id := id); auto.
  - assert (declares (StExpr (EBin op a b)) = []) as Ed by (destruct op; try reflexivity; discriminate).
    destruct (existsb (optok_eqb op) (map fst compound)) eqn:Ec.
    + destruct (simple_compound _ _ _ Ec Hs) as (x & -> & Hb). rewrite Ed. apply compound_sem with (id := id); auto.
    + apply Pure; [|assumption]. now apply simple_plain.
Qed.
End S.
