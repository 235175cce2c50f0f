(** Compiled functions: entry, body, exit. *)
From Coq Require Import Ascii String List Bool Arith ZArith Lia.
Import ListNotations.
From Verif Require Import Base Lexer_Model Lexer_Proofs Op_Model Op_Lemmas Number_Model Parser_Model Parser_Spec Parser_Print Ir_Model Codegen_Model Codegen_Spec Codegen_Lemmas Codegen_Expr Codegen_Stmt Codegen_Shape Codegen_Flow Codegen_Sim.

Section Func.
Context {V W : Type}.
Variable oper : optok -> vty -> list V -> option V.
Variable conv : vty -> vty -> V -> option V.
Variable ext : text -> W -> list V -> W * V.
Variable konst_val : konst -> V.
Variable truth : V -> bool.
Variable llvm19 : bool.
Variable op_fun : optok -> vty -> option vty.
Variable fsig : text -> option (list vty * vty).
Variable args : list V.
Notation rt := (@rt V W).
Notation env := (@env V).
Notation prim_sem := (ir_prim oper conv).
Notation step := (@Ir_Model.step V W prim_sem (total ext) konst_val truth args).
Notation run := (@Ir_Model.run V W prim_sem (total ext) konst_val truth args).
Notation call := (@Ir_Model.call V W prim_sem (total ext) konst_val truth args).
Notation steps := (steps oper conv ext konst_val truth args).
Notation execi := (execi oper conv ext konst_val args).
Notation bstmt := (build_stmt llvm19 op_fun fsig).
Notation blist := (build_list bstmt).
Notation run_body := (run_body oper conv (total ext) konst_val truth llvm19 op_fun fsig).
Notation compile := (compile llvm19 op_fun fsig).

(** One parameter *)
Definition define_arg (i : nat) (t : vty) (x : text) (σ : cg) : cg :=
  let k := nslot σ in
  let σ := put (Ins (IStore (OArg i) k)) (put (Ins (IAlloca k)) (set_nslot (S k) σ)) in
  let (id, σ) := new_value t (LSlot k) σ in set_named ((x, id) :: named σ) σ.
Lemma define_arg_sem i t x σ a : VI σ -> find_text (named σ) x = None -> x <> lit "pi" -> x <> lit "e" -> t <> TVoid -> nth_error args i = Some a ->
  let k := nslot σ in let σ' := define_arg i t x σ in
  sext [IAlloca k; IStore (OArg i) k] σ σ' [x] /\
  forall G ρ s, Gok G (ret_slot σ) -> gsub σ' G -> MG G s ρ -> exists s', execi [IAlloca k; IStore (OArg i) k] s = Ret s' /\ MG G s' (set_var ρ x t a) /\ world s' = world s /\ (forall j, ret_slot σ = Some j -> slots s' j = slots s j).
Proof.
  intros HV Hfr Hpi He Ht Ha k σ'.
  assert (σ' = set_named ((x, length (objs σ)) :: named σ) (set_objs (objs σ ++ [Val t (LSlot k)]) (set_blks (emit_at (cur σ) [Ins (IAlloca k); Ins (IStore (OArg i) k)] (blks σ)) (set_nslot (S k) σ)))) as Eσ.
  { unfold σ', define_arg. fold k. rewrite put2_emit. reflexivity. }
  assert (gvar σ' x = Some (t, k)) as Gx. { rewrite Eσ. unfold gvar. cbn [named set_named find_text objs set_objs]. rewrite text_eqb_refl. rewrite nth_error_app2, Nat.sub_diag by lia. reflexivity. }
  assert (forall y, y <> x -> find_text (named σ') y = find_text (named σ) y) as Gn.
  { intros y Hy. rewrite Eσ. cbn [named set_named find_text]. destruct (text_eqb x y) eqn:Ey; [apply text_eqb_eq in Ey; congruence|]. reflexivity. }
  assert (forall y j, find_text (named σ) y = Some j -> nth_error (objs σ') j = nth_error (objs σ) j) as Gi.
  { intros y j Hj. rewrite Eσ. cbn [objs set_named set_objs]. apply nth_error_app1. exact (VI_nok _ HV _ _ Hj). }
  assert (forall y, y <> x -> gvar σ' y = gvar σ y) as Gy.
  { intros y Hy. unfold gvar. rewrite (Gn _ Hy). destruct (find_text (named σ) y) as [j|] eqn:Ej; [|reflexivity]. now rewrite (Gi _ _ Ej). }
  assert (nslot σ' = S k /\ ret_slot σ' = ret_slot σ) as [Ns Rs] by (rewrite Eσ; auto).
  assert (forall y, y = x \/ y <> x) as Dec. { intros y. destruct (text_eqb y x) eqn:E; [left; now apply text_eqb_eq|right; intros ->; rewrite text_eqb_refl in E; discriminate]. }
  split.
  - constructor; try (rewrite Eσ; reflexivity).
    + constructor.
      * rewrite Eσ. unfold objs_ok. cbn. apply Forall_app. split; [apply HV|repeat constructor].
      * intros y j Hj. rewrite Ns, Rs. destruct (Dec y) as [->|Hy].
        -- split; [assumption|]. split; [assumption|]. exists t, k. destruct (gvar_some _ _ _ _ Gx) as (j' & A & B). rewrite Hj in A. injection A as <-. split; [assumption|]. split; [assumption|]. split; [lia|].
           intros Hr. apply (vi_ret _ HV) in Hr. unfold k in *. lia.
        -- rewrite (Gn _ Hy) in Hj. rewrite (Gi _ _ Hj). destruct (vi_var _ HV _ _ Hj) as (A & B & t' & k' & C & D & E & F). split; [assumption|]. split; [assumption|]. exists t', k'. repeat (split; [assumption|]). split; [unfold k; lia|assumption].
      * intros y z t1 t2 j H1 H2. destruct (Dec y) as [->|Hy], (Dec z) as [->|Hz]; try reflexivity.
        -- rewrite Gx in H1. injection H1 as <- <-. rewrite (Gy _ Hz) in H2. destruct (VI_gvar_ok _ _ _ _ HV H2) as (_ & _ & _ & Q & _). unfold k in Q. lia.
        -- rewrite Gx in H2. injection H2 as <- <-. rewrite (Gy _ Hy) in H1. destruct (VI_gvar_ok _ _ _ _ HV H1) as (_ & _ & _ & Q & _). unfold k in Q. lia.
        -- rewrite (Gy _ Hy) in H1. rewrite (Gy _ Hz) in H2. eapply vi_inj; eauto.
      * intros j. rewrite Ns, Rs. intros Hj. apply (vi_ret _ HV) in Hj. unfold k. lia.
    + intros y p Hy. destruct (Dec y) as [->|Hn]; [|now rewrite (Gy _ Hn)]. unfold gvar in Hy. rewrite Hfr in Hy. discriminate.
    + intros y Hy. destruct (Dec y) as [->|Hn]; [right; cbn; auto|]. rewrite (Gn _ Hn) in Hy. auto.
  - intros G ρ s HG Hg HM. cbn [Codegen_Expr.execi Ir_Model.exec_inst Ir_Model.opval obind slots regs world]. unfold Ir_Model.opval. rewrite Ha. cbn [obind slots]. unfold upd at 1. rewrite Nat.eqb_refl. eexists. split; [reflexivity|].
    split; [|split; [reflexivity|]].
    + eapply MG_store; [exact HG|apply Hg; exact Gx| |cbn [slots]; unfold upd; rewrite Nat.eqb_refl; reflexivity|exact HM]. intros j Hj. cbn [slots]. unfold upd. destruct (Nat.eqb_spec j k); [contradiction|reflexivity].
    + intros j Hj. cbn [slots]. unfold upd. apply (vi_ret _ HV) in Hj. destruct (Nat.eqb_spec j k); [unfold k in *; lia|reflexivity].
Qed.
Lemma define_args_sem l : forall i σ vs, VI σ -> fresh σ (map snd l) -> NoDup (map snd l) -> Forall (fun p => fst p <> TVoid) l -> length vs = length l -> (forall j, nth_error vs j <> None -> nth_error args (i + j) = nth_error vs j) ->
  exists xs, sext xs σ (define_args i l σ) (map snd l) /\
  forall G ρ s, Gok G (ret_slot σ) -> gsub (define_args i l σ) G -> MG G s ρ ->
    exists s', execi xs s = Ret s' /\ MG G s' (bind_args l vs ρ) /\ world s' = world s /\ (forall j, ret_slot σ = Some j -> slots s' j = slots s j).
Proof.
  induction l as [|[t x] l IH]; intros i σ vs HV Hf Hn Ht Hlen Ha; destruct vs as [|a vs]; try discriminate.
  - exists []. split. { constructor; try reflexivity; [cbn; now rewrite emit_at_nil|assumption|now intros z p|auto]. } intros G ρ s HG Hg HM. exists s. repeat split; auto.
  - cbn [map snd fst] in *. inversion Hf as [|? ? (F1 & F2 & F3) Hf2]; subst. inversion Hn as [|? ? N1 N2]; subst. inversion Ht as [|? ? T1 T2]; subst. injection Hlen as Hlen. cbn [fst] in T1.
    assert (nth_error args i = Some a) as Ea. { specialize (Ha 0). rewrite Nat.add_0_r in Ha. apply Ha. discriminate. }
    destruct (define_arg_sem i t x σ a HV F1 F2 F3 T1 Ea) as [X1 R1]. set (σ1 := define_arg i t x σ) in *.
    change (define_args i ((t, x) :: l) σ) with (define_args (S i) l σ1).
    destruct (IH (S i) σ1 vs) as (xs & X2 & R2); auto. { apply X1. }
    { eapply fresh_next with (d1 := [x]); [eapply vext_sext; exact X1|exact Hf2|exact Hn]. }
    { intros j Hj. specialize (Ha (S j) Hj). rewrite Nat.add_succ_r in Ha. exact Ha. }
    eexists. split; [eapply (sext_trans _ _ _ _ _ [x] (map snd l)); eauto|]. intros G ρ s HG Hg HM.
    assert (gsub σ1 G) as Hg1. { intros z p Hz. apply Hg, (s_gsub _ _ _ _ X2), Hz. }
    destruct (R1 G ρ s HG Hg1 HM) as (s1 & E1 & M1 & W1 & K1). destruct (R2 G (set_var ρ x t a) s1) as (s2 & E2 & M2 & W2 & K2); auto. { now rewrite (s_rslot _ _ _ _ X1). }
    exists s2. rewrite execi_app, E1. split; [exact E2|]. split; [exact M2|]. split; [congruence|]. intros j Hj. rewrite K2 by (rewrite (s_rslot _ _ _ _ X1); exact Hj). auto.
Qed.

(** *** Runs *)
Lemma run_steps F m k p q : steps F m p q -> run (m + k) F p = run k F q.
Proof. revert p. induction m as [|m IH]; intros p H; cbn in H; [now subst|]. destruct H as (x & E & H). cbn [Nat.add Ir_Model.run]. rewrite E. cbn [obind]. auto. Qed.
Lemma run_hang F n : forall m p q, n <= m -> steps F m p q -> run n F p = Hang.
Proof. induction n as [|n IH]; intros m p q Hm H; [reflexivity|]. destruct m as [|m]; [lia|]. destruct H as (x & E & H). cbn [Ir_Model.run]. rewrite E. cbn [obind]. apply (IH m _ q); [lia|assumption]. Qed.

Lemma compile_sim ret params body F n w :
  forallb simple (map denote_stmt body) = true -> shaped_list (map denote_stmt body) = true -> names_ok params (map denote_stmt body) ->
  Forall (fun p => fst p <> TVoid) params -> length args = length params ->
  compile ret params body = Ret F ->
  match run_body ret n params args w (map denote_stmt body) with
  | Ret r => exists m, call m F w = Ret r
  | UB => exists m, call m F w = UB
  | Hang => call n F w = Hang
  | Err => False
  end.
Proof.
  intros Si Sh (ND & Npi & Ne) Hty Hlen H. unfold Codegen_Model.compile, build_stmts in H. set (σ := define_function ret params) in *. destruct (blist body σ) as [σ1| | |] eqn:E; try discriminate. cbn [obind] in H. injection H as <-.
  pose proof (define_stays ret params : stays σ) as St. destruct (define_blks ret params) as (es & A & B & C & D). fold σ in A, B, C, D.
  (* entry *)
  set (τ0 := Cg [Blk true []; Blk false []] 0 0 0 [] [] [] 1 ret None).
  assert (exists xs, blks σ = [Blk true (map Ins xs); Blk false []] /\ VI σ /\ rets σ /\ ret_ty σ = ret /\ (forall x, find_text (named σ) x <> None -> In x (map snd params)) /\
    forall G, Gok G (ret_slot σ) -> gsub σ G -> exists s, execi xs (Rt (fun _ => None) (fun _ => None) w) = Ret s /\ MG G s (bind_args params args (fun _ => None)) /\ world s = w /\ retok (ret_slot σ) s) as (xs & Bx & HV & Hr & Ety & Hnm & Entry).
  { assert (exists τ ys, σ = define_args 0 params τ /\ blks τ = [Blk true (map Ins ys); Blk false []] /\ cur τ = 0 /\ VI τ /\ rets τ /\ ret_ty τ = ret /\ named τ = [] /\
      (forall G, Gok G (ret_slot τ) -> exists s, execi ys (Rt (fun _ => None) (fun _ => None) w) = Ret s /\ MG G s (fun _ => None) /\ world s = w /\ retok (ret_slot τ) s)) as (τ & ys & Eτ & Bτ & Cτ & Vτ & Rτ & Tτ & Nτ & Pτ).
    { assert (forall rs k, VI (Cg [Blk true (match rs with Some _ => [Ins (IAlloca 0)] | None => [] end); Blk false []] 0 0 k [] [] [] 1 ret rs) <-> (forall j, rs = Some j -> j < k)) as Vi.
      { intros rs k. split; [intros Q; exact (vi_ret _ Q)|]. intros Q. constructor; [constructor| | |exact Q]; cbn; discriminate. }
      assert (ret = TVoid \/ ret <> TVoid) as [Ev|Ev] by (destruct ret; auto; right; discriminate).
      - exists τ0, []. subst ret. split; [reflexivity|]. split; [reflexivity|]. split; [reflexivity|]. split; [apply (Vi None 0); discriminate|]. split; [now split|]. split; [reflexivity|]. split; [reflexivity|].
        intros G HG. eexists. split; [reflexivity|]. split; [|split; [reflexivity|intros k Hk; discriminate]]. intros x. destruct (G x) as [[t k]|]; auto.
      - exists (Cg [Blk true [Ins (IAlloca 0)]; Blk false []] 0 0 1 [] [] [] 1 ret (Some 0)), [IAlloca 0]. split; [unfold σ, define_function; destruct ret; [contradiction|reflexivity|reflexivity]|]. split; [reflexivity|]. split; [reflexivity|].
        split; [apply (Vi (Some 0) 1); intros j Q; injection Q as <-; lia|]. split; [split; [discriminate|contradiction]|]. split; [reflexivity|]. split; [reflexivity|].
        intros G HG. eexists. split; [reflexivity|]. split; [|split; [reflexivity|]].
        + intros x. cbn [slots]. unfold upd. destruct (G x) as [[t k]|] eqn:Gx; [|reflexivity]. right. split; [reflexivity|]. destruct (Nat.eqb_spec k 0) as [->|]; [|reflexivity]. exfalso. apply (g_ret _ _ HG _ _ _ Gx). reflexivity.
        + intros k Hk. injection Hk as <-. reflexivity. }
    destruct (define_args_sem params 0 τ args Vτ) as (zs & X & R); auto.
    { apply Forall_forall. intros x Hx. split; [now rewrite Nτ|]. split; intros ->; [apply Npi|apply Ne]; apply in_or_app; auto. }
    { exact (proj1 (NoDup_app_inv _ _ ND)). }
    rewrite <- Eτ in X. exists (ys ++ zs). rewrite (s_rslot _ _ _ _ X), (s_rty _ _ _ _ X). split. { rewrite (s_blks _ _ _ _ X), Cτ, Bτ, map_app. reflexivity. }
    split; [apply X|]. split. { unfold rets. rewrite (s_rslot _ _ _ _ X), (s_rty _ _ _ _ X). exact Rτ. } split; [assumption|].
    split. { intros x Hx. destruct (s_new _ _ _ _ X x Hx) as [Q|Q]; [|assumption]. rewrite Nτ in Q. cbn in Q. congruence. }
    intros G HG Hg. destruct (Pτ G HG) as (s0 & E0 & M0 & W0 & K0). rewrite Eτ in Hg. destruct (R G _ s0 HG Hg M0) as (s1 & E1 & M1 & W1 & K1).
    exists s1. rewrite execi_app, E0. split; [exact E1|]. split; [exact M1|]. split; [congruence|]. intros k Hk. rewrite (K1 k Hk). auto. }
  (* body *)
  destruct (NoDup_app_inv _ _ ND) as [_ ND2].
  assert (fresh σ (flat_map declares (map denote_stmt body))) as Hf.
  { apply Forall_forall. intros x Hx. split; [|split; intros ->; [apply Npi|apply Ne]; apply in_or_app; auto]. destruct (find_text (named σ) x) eqn:Ex; [|reflexivity]. exfalso.
    assert (In x (map snd params)) as Hp by (apply Hnm; congruence). clear -ND Hp Hx. induction (map snd params) as [|a l IH]; [destruct Hp|]. cbn in ND. inversion ND as [|? ? N1 N2]; subst. destruct Hp as [->|Hp]; [apply N1, in_or_app; auto|auto]. }
  destruct (sims oper conv ext konst_val truth llvm19 op_fun fsig args body σ σ1 Si Sh HV St Hr Hf ND2 E) as [X R]. destruct (shapes llvm19 op_fun fsig body σ σ1 Sh E St) as [F1 K1].
  pose proof (v_vi _ _ _ X) as HV1. set (G := gvar σ1).
  assert (ret_slot σ1 = ret_slot σ) as Rs by apply K1.
  assert (Gok G (ret_slot σ)) as HG.
  { constructor.
    - intros x y t t' k. apply (vi_inj _ HV1).
    - intros x t k Hx. rewrite <- Rs. apply (VI_gvar_ok _ _ _ _ HV1 Hx).
    - destruct (G (lit "pi")) as [[t k]|] eqn:Q; [|reflexivity]. exfalso. destruct (VI_gvar_ok _ _ _ _ HV1 Q) as (Q1 & _). now apply Q1.
    - destruct (G (lit "e")) as [[t k]|] eqn:Q; [|reflexivity]. exfalso. destruct (VI_gvar_ok _ _ _ _ HV1 Q) as (_ & Q2 & _). now apply Q2. }
  (* exit *)
  assert (dests σ = [1]) as ED by (unfold dests; now rewrite C, D). rewrite ED in F1. pose proof (proj1 (proj1 St)) as Hc. assert (len σ = 2) as L by now rewrite A.
  set (σ2 := if cur_term σ1 then σ1 else put (Br (exit_b σ1)) σ1).
  assert (exit_b σ1 = 1) as X1 by (rewrite (k_exit _ _ K1); exact D).
  assert (frame [1] [] σ σ2 true) as F2. { unfold σ2. eapply frame_end; eauto. left. rewrite X1. cbn; auto. }
  assert (exit_b σ2 = 1 /\ ret_slot σ2 = ret_slot σ) as [X2 Rs2]. { unfold σ2. rewrite (k_exit _ _ (kept_end _ _)), (k_rslot _ _ (kept_end _ _)), X1, Rs. auto. }
  assert (nth_error (blks σ2) 1 = Some (Blk false [])) as N1. { rewrite (f_old _ _ _ _ _ F2); [now rewrite A|lia|rewrite B; discriminate]. }
  set (σ3 := set_cur 1 (set_inserted true 1 σ2)).
  set (zs := match ret_slot σ with Some k => [Ins (ILoad (nreg σ3) k); RetVal (OReg (nreg σ3))] | None => [RetVoid] end).
  assert (length (blks σ2) > 1) as L2 by (pose proof (f_len _ _ _ _ _ F2); lia).
  assert (blks (finish_function σ1) = set_nth 1 (Blk true zs) (blks σ2)) as EF.
  { assert (blks σ3 = set_nth 1 (Blk true []) (blks σ2)) as E3 by (cbn; unfold set_inserted; now rewrite N1).
    assert (forall l, emit_at 1 l (blks σ3) = set_nth 1 (Blk true l) (blks σ2)) as Em.
    { intros l. rewrite E3. apply nth_ext_eq. intros k. destruct (Nat.eq_dec k 1) as [->|Hk].
      - rewrite (emit_at_same _ _ _ (Blk true [])) by (now apply set_nth_same). rewrite set_nth_same by lia. reflexivity.
      - rewrite emit_at_other by assumption. now rewrite !set_nth_other by (auto; lia). }
    assert (ret_slot σ3 = ret_slot σ) as Rs3. { unfold σ3. rewrite (k_rslot _ _ (kept_cur _ _)), (k_rslot _ _ (kept_ins _ _ _)). exact Rs2. }
    unfold finish_function. fold σ2. rewrite X2. fold σ3. rewrite Rs3. unfold zs. destruct (ret_slot σ) as [k|].
    - cbn [new_reg]. rewrite !blks_put, cur_put. cbn [set_nreg blks cur]. change (cur σ3) with 1. rewrite emit_at_app. apply Em.
    - rewrite blks_put. change (cur σ3) with 1. apply Em. }
  set (F := blks (finish_function σ1)) in *.
  assert (items_of F 1 = zs) as I1 by (rewrite EF; unfold items_of; now rewrite set_nth_same by lia).
  assert (grows F σ2) as HF2.
  { intros z. rewrite EF. unfold items_of. destruct (Nat.eq_dec z 1) as [->|Hz]; [rewrite set_nth_same by lia; rewrite N1; cbn; eauto|]. rewrite set_nth_other by (auto; lia). exists []. now rewrite app_nil_r. }
  assert (grows F σ1) as HF1. { eapply grows_ipre; [|exact HF2]. unfold σ2. apply ipre_closing. }
  assert (grows F σ) as HF. { eapply grows_ipre; [|exact HF1]. eapply ipre_frame; eauto. }
  assert (forall k s, run (S (S k)) F (Pt 1 0 s) = match ret_slot σ with
     | Some j => match slots s j with Some (Some v) => Ret (Some v, world s) | _ => UB end
     | None => Ret (None, world s) end) as Exit.
  { intros k s. cbn [Ir_Model.run]. unfold Ir_Model.step at 1. cbn [p_b p_k p_rt]. rewrite I1. unfold zs. destruct (ret_slot σ) as [j|]; cbn [nth_error]; [|reflexivity].
    cbn [Ir_Model.exec_inst]. destruct (slots s j) as [[v|]|]; cbn [obind]; try reflexivity. unfold Ir_Model.step. cbn [p_b p_k p_rt]. rewrite I1. unfold zs. cbn [nth_error Ir_Model.opval regs]. unfold upd. rewrite Nat.eqb_refl. reflexivity. }
  assert (gsub σ G) as Hg by (eapply gsub_trans; [exact X|]; now intros z p).
  destruct (Entry G HG Hg) as (s & Es & Ms & Ws & Ks).
  assert (exists m, steps F m (Pt 0 0 (Rt (fun _ => None) (fun _ => None) w)) (here σ s)) as (m0 & S0).
  { destruct (HF 0) as (r & Er). rewrite Bx in Er. unfold items_of at 2 in Er. cbn [nth_error b_items] in Er.
    pose proof (straight oper conv ext konst_val truth args F 0 xs [] r (Rt (fun _ => None) (fun _ => None) w) Er) as S0. rewrite Es in S0. cbn [length Nat.add] in S0.
    exists (length xs). unfold here. rewrite B, Bx. unfold items_of. cbn [nth_error b_items]. rewrite map_length. exact S0. }
  specialize (R F G (bind_args params args (fun _ => None)) s n HF1 HG ltac:(now intros z p) Ms Ks). rewrite Ws, Ety, C, D in R.
  unfold Codegen_Spec.run_body. unfold res in R.
  pose proof (fun ρ' w' => execs_next' oper conv ext konst_val truth llvm19 op_fun fsig ret n (map denote_stmt body) (bind_args params args (fun _ => None)) w ρ' w') as Nx.
  destruct (execs oper conv (total ext) konst_val truth llvm19 op_fun fsig ret n (bind_args params args (fun _ => None)) w (map denote_stmt body)) as [[[g ρ'] w']| | |]; cbn [obind].
  - destruct R as (m & s' & q & Gq & Sq & Wq & Af). assert (forall k, call (m0 + (m + k)) F w = run k F q) as Go. { intros k. unfold Ir_Model.call. rewrite (run_steps _ _ _ _ _ S0). apply (run_steps _ _ _ _ _ Sq). }
    assert (vty_eqb ret TVoid = match ret_slot σ with None => true | Some _ => false end) as Ev.
    { unfold rets in Hr. rewrite Ety in Hr. destruct (ret_slot σ); [|rewrite (proj1 Hr eq_refl); reflexivity]. apply not_true_is_false. intros Q. apply vty_eqb_eq in Q. apply Hr in Q. discriminate. }
    destruct g as [| | |[v|]]; cbn [goes] in Gq; try discriminate.
    + injection Gq as <-. destruct Af as [_ Hk]. assert (cur_term σ1 = false) as Tm by (rewrite (term_last _ _ _ _ _ F1); eapply Nx; reflexivity).
      assert (steps F 1 (here σ1 s') (Pt 1 0 s')) as Sj. { replace (Pt 1 0 s') with (Pt (exit_b σ1) 0 s') by now rewrite X1. apply jump; [|fr F1]. unfold σ2 in HF2. rewrite Tm in HF2. exact HF2. }
      rewrite Ev. specialize (Go (1 + 2)). rewrite (run_steps _ 1 2 _ _ Sj) in Go. rewrite Exit in Go. destruct (ret_slot σ) as [j|]; [rewrite (Hk j eq_refl) in Go|]; [|rewrite Wq in Go]; eauto.
    + injection Gq as <-. destruct Af as (j & Ej & Sj). specialize (Go 2). rewrite Exit, Ej, Sj, Wq in Go. eauto.
    + injection Gq as <-. specialize (Go 2). rewrite Exit in Go. rewrite Ev. cbn [after] in Af. destruct (ret_slot σ) as [j|]; [rewrite (Af j eq_refl) in Go|]; [|rewrite Wq in Go]; eauto.
  - exact R.
  - destruct R as (m & q & Sq & Uq). exists (m0 + (m + 1)). unfold Ir_Model.call. rewrite (run_steps _ _ _ _ _ S0), (run_steps _ _ _ _ _ Sq). cbn [Ir_Model.run]. now rewrite Uq.
  - destruct R as (m & q & Hm & Sq). unfold Ir_Model.call. apply (run_hang F n (m0 + m) _ q); [lia|]. eapply steps_trans; eauto.
Qed.
(** Runs are deterministic and only get longer. *)
Lemma run_mono F m p r : run m F p = r -> r <> Hang -> forall k, m <= k -> run k F p = r.
Proof.
  revert p. induction m as [|m IH]; intros p H Hr k Hk; cbn [Ir_Model.run] in H; [congruence|]. destruct k as [|k]; [lia|]. cbn [Ir_Model.run]. destruct (step F p) as [[p'|x]| | |]; cbn [obind] in *; auto. apply IH; auto. lia.
Qed.
End Func.
