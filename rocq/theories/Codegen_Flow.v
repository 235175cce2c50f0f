(** Execution of generated control flow. *)
From Coq Require Import Ascii String List Bool Arith ZArith Lia.
Import ListNotations.
From Verif Require Import Base Lexer_Model Lexer_Proofs Op_Model Op_Lemmas Number_Model Parser_Model Parser_Spec Parser_Print Ir_Model Codegen_Model Codegen_Spec Codegen_Lemmas Codegen_Expr Codegen_Stmt Codegen_Shape.

Notation items σ b := (items_of (blks σ) b).
Notation insd σ b := (inserted (blks σ) b).
Notation len σ := (length (blks σ)).
(** *** What block operations keep *)
Record vars_eq (σ σ' : cg) : Prop := { e_objs : objs σ' = objs σ; e_named : named σ' = named σ; e_nslot : nslot σ' = nslot σ; e_nreg : nreg σ' = nreg σ; e_rslot : ret_slot σ' = ret_slot σ }.
Lemma vars_refl σ : vars_eq σ σ. Proof. now constructor. Qed.
Lemma vars_trans σ σ1 σ2 : vars_eq σ σ1 -> vars_eq σ1 σ2 -> vars_eq σ σ2.
Proof. intros [] []. constructor; congruence. Qed.
Lemma vars_put i σ : vars_eq σ (put i σ).
Proof. rewrite put_emit. now constructor. Qed.
Lemma vars_end b σ : vars_eq σ (if cur_term σ then σ else put (Br b) σ).
Proof. destruct (cur_term σ); [apply vars_refl|apply vars_put]. Qed.
Lemma vars_cur b σ : vars_eq σ (set_cur b σ). Proof. now constructor. Qed.
Lemma vars_ins v b σ : vars_eq σ (set_inserted v b σ).
Proof. unfold set_inserted. destruct (nth_error _ _); now constructor. Qed.
Lemma gvar_eq σ σ' x : vars_eq σ σ' -> gvar σ' x = gvar σ x.
Proof. intros []. unfold gvar. now rewrite e_objs0, e_named0. Qed.
Lemma VI_eq σ σ' : vars_eq σ σ' -> VI σ -> VI σ'.
Proof.
  intros E [A B C D]. pose proof E as []. constructor.
  - unfold objs_ok in *. now rewrite e_nreg0, e_objs0.
  - intros x id H. rewrite e_named0 in H. rewrite e_objs0, e_nslot0, e_rslot0. eauto.
  - intros x y t t' k. rewrite !(gvar_eq _ _ _ E). eauto.
  - intros k. rewrite e_rslot0, e_nslot0. auto.
Qed.
(** Items are only appended. *)
Definition ipre (σ σ' : cg) : Prop := forall b, exists r, items σ' b = items σ b ++ r.
Lemma ipre_refl σ : ipre σ σ. Proof. intros b. exists []. now rewrite app_nil_r. Qed.
Lemma ipre_trans σ σ1 σ2 : ipre σ σ1 -> ipre σ1 σ2 -> ipre σ σ2.
Proof. intros A B b. destruct (A b) as (r & E), (B b) as (r' & E'). exists (r ++ r'). now rewrite E', E, app_assoc. Qed.
Lemma ipre_eq σ σ' : (forall b, items σ' b = items σ b) -> ipre σ σ'.
Proof. intros H b. exists []. now rewrite H, app_nil_r. Qed.
Lemma ipre_put i σ : ipre σ (put i σ).
Proof.
  intros b. rewrite blks_put. destruct (Nat.eq_dec b (cur σ)) as [->|Hn]; [|exists []; now rewrite items_emit_other, app_nil_r].
  destruct (Nat.lt_ge_cases (cur σ) (len σ)) as [H|H]; [exists [i]; now apply items_emit_same|]. exists []. rewrite app_nil_r. unfold emit_at. destruct (nth_error (blks σ) (cur σ)) eqn:E; [apply nth_error_lt in E; lia|reflexivity].
Qed.
Lemma ipre_frame P Q σ σ' lv : frame P Q σ σ' lv -> ipre σ σ'.
Proof. intros F b. eapply frame_items; eauto. Qed.
Lemma items_insert v b σ c : items (set_inserted v b σ) c = items σ c.
Proof.
  unfold set_inserted. destruct (nth_error (blks σ) b) as [x|] eqn:E; [|reflexivity]. unfold items_of. cbn. destruct (Nat.eq_dec c b) as [->|Hn].
  - rewrite set_nth_same by (eapply nth_error_lt; eauto). now rewrite E.
  - rewrite set_nth_other; [reflexivity|eapply nth_error_lt; eauto|assumption].
Qed.
Lemma ipre_put_mono i σ σ' : cur σ' = cur σ -> ipre σ σ' -> items σ' (cur σ) = items σ (cur σ) -> cur σ < len σ -> cur σ < len σ' -> ipre (put i σ) (put i σ').
Proof.
  intros Ec H Ei L L' b. rewrite !blks_put, Ec. destruct (Nat.eq_dec b (cur σ)) as [->|Hn].
  - exists []. rewrite app_nil_r, !items_emit_same by assumption. now rewrite Ei.
  - rewrite !items_emit_other by assumption. apply H.
Qed.

Ltac fr F := first [exact (f_len _ _ _ _ _ F)|exact (f_old _ _ _ _ _ F)|exact (f_in _ _ _ _ _ F)|exact (f_ext _ _ _ _ _ F)|exact (f_move _ _ _ _ _ F)|exact (f_new _ _ _ _ _ F)
  |exact (f_pend _ _ _ _ _ F)|exact (f_nodup _ _ _ _ _ F)|exact (f_curlt _ _ _ _ _ F)|exact (f_curin _ _ _ _ _ F)|exact (f_last _ _ _ _ _ F)|exact (f_tgt _ _ _ _ _ F)].
Section Flow.
Variable llvm19 : bool.
Variable op_fun : optok -> vty -> option vty.
Variable fsig : text -> option (list vty * vty).
Notation bstmt := (build_stmt llvm19 op_fun fsig).
Notation blist := (build_list bstmt).
Notation SHL := (SHL llvm19 op_fun fsig).
Lemma while_parts c b σ σ' : shaped_list (map denote_stmt b) = true -> bstmt (S_while c b) σ = Ret σ' -> stays σ ->
  let n := len σ in
  exists σ6 id σ7 o σ8 σ10 σ11,
    build_cond llvm19 op_fun fsig c σ6 = Ret (id, σ7) /\ load_value id σ7 = Ret (o, σ8) /\ blist b σ10 = Ret σ11 /\
    vars_eq σ σ6 /\ vars_eq σ8 σ10 /\ vars_eq σ11 σ' /\
    (cur σ6 = n /\ items σ6 n = [] /\ cur σ10 = S (S n) /\ items σ10 (S (S n)) = [] /\ cur σ' = S n /\ items σ' (S n) = []) /\
    (ipre (put (Br n) σ) σ6 /\ ipre (put (CondBr o (S (S n)) (S n)) σ8) σ10 /\ ipre σ10 σ11 /\ ipre (closing n σ11) σ') /\
    stays σ10 /\ ready σ6 /\ (loops σ10 = (n, S n) :: loops σ /\ exit_b σ10 = exit_b σ /\ ret_ty σ10 = ret_ty σ) /\
    cur_term σ11 = last_leaves (map denote_stmt b) /\ cur σ11 < len σ11.
Proof.
  intros Sh H St n. pose proof (shapes llvm19 op_fun fsig b) as IH. cbn [build_stmt] in H. destruct St as (R & HD & HTG). pose proof R as (Hc & Hi & Ho).
  set (P := dests σ) in *.
  (* the blocks *)
  pose proof (frame_block _ _ true _ _ _ Hc (frame_refl P σ R)) as F1. cbn [app] in F1. fold n in F1. set (σ1 := snd (new_block true σ)) in *.
  assert (len σ1 = S n) as L1 by (cbn; rewrite app_length; cbn; fold n; lia).
  pose proof (frame_block _ _ false _ _ _ Hc F1) as F2. cbn [app] in F2. rewrite L1 in F2. set (σ2 := snd (new_block false σ1)) in *.
  assert (len σ2 = S (S n)) as L2 by (cbn [σ2 new_block snd blks set_blks]; rewrite app_length, L1; cbn; lia).
  pose proof (frame_block _ _ false _ _ _ Hc F2) as F3. cbn [app] in F3. rewrite L2 in F3. set (σ3 := snd (new_block false σ2)) in *.
  assert (len σ3 = S (S (S n))) as L3 by (cbn [σ3 new_block snd blks set_blks]; rewrite app_length, L2; cbn; lia).
  set (σ4 := set_loops ((n, S n) :: loops σ) σ3). assert (insd σ4 n = true) as I4.
  { assert (blks σ4 = blks σ ++ [Blk true []; Blk false []; Blk false []]) as -> by (cbn; rewrite <- !app_assoc; reflexivity). unfold inserted. rewrite nth_error_app2 by lia. fold n. now rewrite Nat.sub_diag. }
  pose proof (frame_set_loops _ _ ((n, S n) :: loops σ) _ _ _ F3) as F4. fold σ4 in F4.
  set (σ5 := if cur_term σ4 then σ4 else put (Br n) σ4).
  assert (frame P [n; S n; S (S n)] σ σ5 true) as F5 by (apply frame_end with (lv := false); auto).
  assert (insd σ5 n = true) as I5 by (unfold σ5; rewrite insd_end; exact I4).
  assert (new_loop σ = (n, S (S n), S n, set_cur n σ5)) as EN.
  { unfold new_loop. cbn [new_block]. fold n. change (length (blks (set_blks (blks σ ++ [Blk true []]) σ))) with (len σ1). rewrite L1.
    change (length (blks (set_blks (blks (set_blks (blks σ ++ [Blk true []]) σ) ++ [Blk false []]) (set_blks (blks σ ++ [Blk true []]) σ)))) with (len σ2). rewrite L2. reflexivity. }
  rewrite EN in H. cbn beta iota in H. clear EN.
  pose proof (frame_goto _ [] _ _ _ _ Hc F5 I5) as F6. cbn [app] in F6. set (σ6 := set_cur n σ5) in *.
  assert (exit_b σ6 = exit_b σ /\ loops σ6 = (n, S n) :: loops σ /\ ret_ty σ6 = ret_ty σ /\ ret_slot σ6 = ret_slot σ) as (X6 & Lo6 & T6 & R6).
  { assert (kept σ4 σ6) as K by (eapply kept_trans; [apply kept_end|apply kept_cur]). rewrite (k_exit _ _ K), (k_loops _ _ K), (k_rty _ _ K), (k_rslot _ _ K). repeat split. }
  (* condition *)
  destruct (build_cond _ _ _ c σ6) as [[id σ7]| | |] eqn:EC; try discriminate. cbn [obind] in H. pose proof (iext_cond _ _ _ _ _ _ _ EC) as X7.
  pose proof (frame_trans _ _ _ _ _ _ Hc F6 (frame_iext P _ _ (ready_frame _ _ _ _ F6) X7)) as F7.
  destruct (add_loop_cond (S (S n)) (S n) id σ7) as [σ10| | |] eqn:EA; try discriminate. cbn [obind] in H.
  unfold add_loop_cond in EA. destruct (load_value id σ7) as [[o σ8]| | |] eqn:EL; try discriminate. cbn [obind] in EA. injection EA as EA.
  pose proof (iext_load _ _ _ _ EL) as X8. pose proof (frame_trans _ _ _ _ _ _ Hc F7 (frame_iext P _ _ (ready_frame _ _ _ _ F7) X8)) as F8.
  set (P1 := S n :: n :: S (S n) :: P). assert (frame P1 [S n; S (S n)] σ (put (CondBr o (S (S n)) (S n)) σ8) true) as F9.
  { apply frame_term; [assumption|eapply frame_weaken; [|exact F8]; unfold P1; cbn; auto|reflexivity|]. intros x [<-|[<-|[]]]; left; unfold P1; cbn; auto. }
  set (σ9 := put (CondBr o (S (S n)) (S n)) σ8) in *.
  pose proof (frame_insert _ _ (S (S n)) _ _ _ Hc F9 (or_intror (or_introl eq_refl))) as F9'.
  assert (len σ9 = S (S (S n))) as L9. { unfold σ9. rewrite len_put, (iext_len _ _ X8), (iext_len _ _ X7). cbn [σ6 set_cur blks]. unfold σ5. rewrite len_end. exact L3. }
  assert (insd (set_inserted true (S (S n)) σ9) (S (S n)) = true) as I9 by (apply insd_insert; lia).
  pose proof (frame_goto _ [S n] _ [] _ _ Hc F9' I9) as F10. cbn [app] in F10. rewrite EA in F10.
  assert (kept σ6 σ10) as K10. { eapply kept_trans; [apply same_kept, X7|]. eapply kept_trans; [apply same_kept, X8|]. subst σ10. eapply kept_trans; [apply kept_put|]. eapply kept_trans; [apply kept_ins|apply kept_cur]. }
  assert (insd σ10 n = true /\ insd σ10 (S (S n)) = true /\ len σ10 = S (S (S n))) as (I10 & I10' & L10).
  { subst σ10. cbn [set_cur blks]. fold σ9. split; [|split; [assumption|rewrite len_insert; assumption]]. apply insd_insert_mono. unfold σ9. rewrite insd_put, (iext_insd _ _ _ X8), (iext_insd _ _ _ X7). exact I5. }
  assert (dests σ10 = exit_b σ :: n :: S n :: flat_map (fun p => [fst p; snd p]) (loops σ)) as D10. { unfold dests. rewrite (k_exit _ _ K10), (k_loops _ _ K10), X6, Lo6. reflexivity. }
  assert (stays σ10) as S10.
  { split; [eapply ready_frame; eauto|]. rewrite D10, L10. assert (Forall (fun z => z < S (S (S n))) (dests σ)) as HD2. { eapply Forall_impl; [|exact HD]. cbn beta. intros z Hz. lia. }
    split. { unfold dests in HD2. inversion HD2; subst. constructor; [assumption|]. constructor; [lia|]. constructor; [lia|assumption]. }
    rewrite <- L10. eapply frame_tgts; [exact HTG| |exact F10]. unfold P1. rewrite L10. repeat (constructor; [lia|]). exact HD2. }
  (* body *)
  destruct (blist b σ10) as [σ11| | |] eqn:EB; try discriminate. cbn [obind] in H. injection H as <-.
  destruct (IH _ _ Sh EB S10) as [FB KB]. rewrite D10 in FB.
  assert (frame P1 [S n] σ σ11 (last_leaves (map denote_stmt b))) as F11.
  { eapply frame_trans; [exact Hc|exact F10|]. eapply frame_weaken; [|exact FB]. unfold P1, P, dests. cbn [In]. intros z [Hz|[Hz|[Hz|Hz]]]; auto. }
  assert (forall z, z < len σ10 -> insd σ11 z = insd σ10 z) as I11 by (intros z Hz; eapply frame_ins; [apply S10|exact FB|exact Hz]).
  unfold finish_loop. set (σ12 := if cur_term σ11 then σ11 else put (Br n) σ11).
  assert (frame P1 [S n] σ σ12 true) as F12 by (apply frame_end with (lv := last_leaves (map denote_stmt b)); [assumption|exact F11|left; unfold P1; cbn; auto]).
  pose proof (frame_insert _ _ (S n) _ _ _ Hc F12 (or_introl eq_refl)) as F13.
  assert (len σ12 = len σ11) as L12 by apply len_end. pose proof (f_len _ _ _ _ _ FB) as LB.
  assert (insd (set_inserted true (S n) σ12) (S n) = true) as I13 by (apply insd_insert; lia).
  pose proof (frame_goto _ [] _ [] _ _ Hc F13 I13) as F14. cbn [app] in F14.
  apply (frame_set_loops _ _ (tl (loops (set_cur (S n) (set_inserted true (S n) σ12))))) in F14. set (σ15 := set_loops _ _) in F14.
  assert (insd σ15 n = true /\ insd σ15 (S (S n)) = true /\ insd σ15 (S n) = true) as (J1 & J2 & J3).
  { cbn [σ15 set_loops set_cur blks]. split; [|split; [|assumption]]; apply insd_insert_mono; unfold σ12; rewrite insd_end, I11 by lia; assumption. }
  exists σ6, id, σ7, o, σ8, σ10, σ11. split; [assumption|]. split; [assumption|]. split; [assumption|].
  assert (vars_eq σ σ6) as V6. { eapply vars_trans with (σ1 := σ4); [now constructor|]. eapply vars_trans; [apply vars_end|apply vars_cur]. }
  split; [assumption|]. split. { subst σ10. eapply vars_trans; [apply vars_put|]. eapply vars_trans; [apply vars_ins|apply vars_cur]. }
  split. { eapply vars_trans; [apply (vars_end n)|]. fold σ12. eapply vars_trans; [apply (vars_ins true (S n))|]. now constructor. }
  split. { split; [reflexivity|]. split; [apply (f_pend _ _ _ _ _ F5); cbn; auto|]. split; [subst σ10; reflexivity|].
    split. { subst σ10. cbn [set_cur blks]. apply (f_pend _ _ _ _ _ F9'). cbn; auto. } split; [reflexivity|]. apply (f_pend _ _ _ _ _ F13). cbn; auto. }
  assert (forall z, items σ4 z = items σ z) as It4. { intros z. change (items σ4 z) with (items σ3 z). unfold σ3, σ2, σ1. now rewrite !items_block. }
  split. { split; [|split; [|split]].
    - change (ipre (put (Br n) σ) σ5). unfold σ5. rewrite (term_last _ _ _ _ _ F4). apply ipre_put_mono; [reflexivity|now apply ipre_eq|apply It4|assumption|fr F4].
    - subst σ10. fold σ9. apply ipre_eq. intros z. change (items (set_inserted true (S (S n)) σ9) z = items σ9 z). apply items_insert.
    - eapply ipre_frame; eauto.
    - apply ipre_eq. intros z. change (items (set_inserted true (S n) σ12) z = items σ12 z). apply items_insert. }
  split; [assumption|]. split; [eapply ready_frame; eauto|]. split. { rewrite (k_loops _ _ K10), (k_exit _ _ K10), (k_rty _ _ K10). auto. }
  split; [eapply term_last; eauto|fr FB].
Qed.

Lemma if_parts c b es el σ σ' : shaped (denote_stmt (S_ifelse c b es el)) = true -> bstmt (S_ifelse c b es el) σ = Ret σ' -> stays σ ->
  (shaped_list (map denote_stmt b) = true /\ forallb elif_shaped es = true /\
   match el with Some ss => shaped_list (map denote_stmt ss) && (last_leaves (map denote_stmt ss) || forallb flat (map denote_stmt ss)) | None => true end = true) /\
  exists id σ1 s4 o s7 ib eb lb e sb s8 s9,
    let s6 := put (CondBr o ib (next_block eb lb e)) s7 in let Q := flatp eb ++ tail_blocks lb e in
    build_cond llvm19 op_fun fsig c σ = Ret (id, σ1) /\ load_value id s4 = Ret (o, s7) /\ vars_eq σ1 s4 /\ cur s4 = cur σ1 /\ (forall x, items s4 x = items σ1 x) /\ cur s4 < len s4 /\
    (frame (dests σ) (ib :: Q) σ s6 true /\ kept σ s6 /\ (forall x, In x (ib :: Q) -> insd s6 x = true) /\ length eb = length es) /\
    blist b (set_cur ib s6) = Ret sb /\
    build_elifs llvm19 op_fun fsig blist lb e es eb (closing e sb) = Ret s8 /\
    match el, lb with
    | Some ss, Some l => exists sl, blist ss (set_cur l s8) = Ret sl /\ s9 = end_branch l e sl
    | None, None => s9 = s8
    | _, _ => False
    end /\
    σ' = finish_condition e s9 /\ has_pred e s9 = negb (leaves (denote_stmt (S_ifelse c b es el))).
Proof.
  intros Sh H St. pose proof St as (R & HD & HTG). pose proof R as (Hc & Hi & Ho).
  assert (shaped_list (map denote_stmt b) = true /\ forallb elif_shaped es = true /\ match el with Some ss => shaped_list (map denote_stmt ss) && (last_leaves (map denote_stmt ss) || forallb flat (map denote_stmt ss)) | None => true end = true) as (Sb & Ses & Sel).
  { cbn [denote_stmt shaped] in Sh. apply andb_true_iff in Sh as [Sh S3]. apply andb_true_iff in Sh as [S1 S2]. split; [exact S1|]. split.
    - clear - S2. induction es as [|[c' b'] es IH]; [reflexivity|]. cbn [map forallb] in S2. apply andb_true_iff in S2 as [A B]. cbn [forallb]. apply andb_true_iff. split; [exact A|]. apply IH. exact B.
    - destruct el; [exact S3|reflexivity]. }
  assert (leaves (denote_stmt (S_ifelse c b es el)) = match el with Some ss => last_leaves (map denote_stmt b) && forallb elif_leaves es && last_leaves (map denote_stmt ss) | None => false end) as Elv.
  { cbn [denote_stmt leaves]. destruct el as [ss|]; [|reflexivity]. f_equal. f_equal. clear. induction es as [|[c' b'] es IH]; [reflexivity|]. cbn [map forallb]. f_equal. exact IH. }
  split; [auto|]. rewrite Elv. clear Elv. pose proof (shapes llvm19 op_fun fsig b) as IHb. assert (Forall (fun x => SHL (snd x)) es) as IHes by (apply Forall_forall; intros; apply shapes). pose proof (shapes llvm19 op_fun fsig) as IHel.
  cbn [build_stmt] in H. destruct (build_cond llvm19 op_fun fsig c σ) as [[id σ1]| | |] eqn:EC; try discriminate. cbn [obind] in H. set (P := dests σ) in *.
  pose proof (iext_cond _ _ _ _ _ _ _ EC) as X1. pose proof (frame_iext P _ _ R X1) as F1. assert (kept σ σ1) as K1 by apply same_kept, X1.
  destruct (new_condition (length es) (match el with Some _ => true | None => false end) σ1) as [[[[ib eb] lb] e] σ2] eqn:EN. unfold new_condition in EN.
  pose proof (frame_block _ _ true _ _ _ Hc F1) as G1. cbn [app] in G1. set (s1 := snd (new_block true σ1)) in *. change (new_block true σ1) with (len σ1, s1) in EN. cbn beta iota in EN.
  destruct (new_elifs (length es) s1) as [eb' s2] eqn:EE. destruct (new_elifs_frame _ _ _ _ _ _ _ _ Hc G1 EE) as (G2 & Hle & K2 & C2 & L2 & I2 & N2 & M2).
  assert (insd s1 (len σ1) = true) as Is1. { unfold inserted. cbn. rewrite nth_error_app2, Nat.sub_diag by lia. reflexivity. }
  assert (len s1 = S (len σ1)) as Ls1. { cbn. rewrite app_length. cbn. lia. }
  assert (exists s3, (if match el with Some _ => true | None => false end then (Some (len s2), snd (new_block true s2)) else (None, s2)) = (lb, s3) /\
     eb' = eb /\ ib = len σ1 /\ e = len s3 /\ σ2 = snd (new_block true s3)) as (s3 & E3 & -> & -> & -> & ->).
  { destruct el; [change (new_block true s2) with (len s2, snd (new_block true s2)) in EN; set (s3 := snd (new_block true s2)) in *|set (s3 := s2) in *]; exists s3; (split; [|change (new_block true s3) with (len s3, snd (new_block true s3)) in EN]);
      injection EN as <- <- <- <- <-; auto. }
  clear EN. set (tb := match lb with Some b0 => [b0] | None => [] end).
  assert (frame P ([len σ1] ++ flatp eb ++ tb) σ s3 false /\ kept s2 s3 /\ (forall x, In x tb -> insd s3 x = true) /\ (forall x, x < len s2 -> nth_error (blks s3) x = nth_error (blks s2) x) /\ len s2 <= len s3 /\
     (forall x, items s3 x = items s2 x) /\ match el, lb with Some _, Some _ => True | None, None => True | _, _ => False end) as (G3 & K3 & I3 & N3 & L3 & M3 & Hm).
  { destruct el as [ss|].
    - injection E3 as <- <-. pose proof (frame_block _ _ true _ _ _ Hc G2) as G3. rewrite <- app_assoc in G3. split; [exact G3|].
      split; [now constructor|]. split. { intros x [<-|[]]. unfold inserted. cbn. rewrite nth_error_app2, Nat.sub_diag by lia. reflexivity. } split; [intros; cbn; now apply nth_app_lt|]. split; [cbn; rewrite app_length; lia|]. split; [intros; apply items_block|exact I].
    - injection E3 as <- <-. unfold tb. rewrite app_nil_r. split; [exact G2|]. split; [apply kept_refl|]. split; [intros x []|]. split; [auto|]. split; [lia|]. split; [auto|exact I]. }
  pose proof (frame_block _ _ true _ _ _ Hc G3) as G4. set (e := len s3) in *. set (s4 := snd (new_block true s3)) in *.
  assert (forall x, x < e -> nth_error (blks s4) x = nth_error (blks s3) x) as N4 by (intros; cbn; now apply nth_app_lt).
  assert (insd s4 e = true) as Ie. { unfold inserted. cbn. rewrite nth_error_app2, Nat.sub_diag by (fold e; lia). reflexivity. }
  rewrite <- !app_assoc in G4. cbn [app] in G4. change (tb ++ [e]) with (tail_blocks lb e) in G4. set (Q := flatp eb ++ tail_blocks lb e) in *.
  assert (forall x, In x (len σ1 :: Q) -> insd s4 x = true) as I4.
  { intros x [<-|Hx].
    - unfold inserted. rewrite N4, N3, N2 by lia. exact Is1.
    - apply in_app_or in Hx as [Hx|Hx].
      + destruct (f_pend _ _ _ _ _ G2 x) as (B & _). { cbn. auto. } unfold inserted. rewrite N4, N3 by lia. now apply I2.
      + apply in_app_or in Hx as [Hx|[<-|[]]]; [|assumption]. destruct (f_pend _ _ _ _ _ G3 x) as (B & _). { apply in_or_app. right. apply in_or_app. auto. } unfold inserted. rewrite N4 by (unfold e; lia). now apply I3. }
  assert (kept σ s4) as K4. { eapply kept_trans; [exact K1|]. eapply kept_trans; [|eapply kept_trans; [exact K2|eapply kept_trans; [exact K3|]]]; now constructor. }
  assert (In e Q) as HeQ by (unfold Q, tail_blocks; apply in_or_app; right; apply in_or_app; cbn; auto).
  assert (has_pred e s4 = false) as HP4.
  { apply not_true_is_false. intros HP. apply has_pred_iff in HP as (x & HP). unfold tgt, s4 in HP. rewrite items_block, M3, M2 in HP. unfold s1 in HP. rewrite items_block in HP.
    assert (Forall (fun z => z < len σ1) P) as HP1. { eapply Forall_impl; [|exact HD]. cbn beta. intros z Hz. pose proof (f_len _ _ _ _ _ F1). lia. }
    pose proof (frame_tgts _ _ _ _ _ HTG HP1 F1 x e HP). lia. }

  assert (vars_eq σ1 s4 /\ cur s4 = cur σ1 /\ (forall x, items s4 x = items σ1 x)) as (V4 & C4 & M4).
  { assert (vars_eq s1 s2) as V2. { clear - EE. generalize (length es) as k, s1, eb, s2, EE. clear. induction k as [|k IH]; intros s eb s2 H; cbn [new_elifs] in H. { injection H as <- <-. apply vars_refl. }
      cbn [new_block] in H. destruct (new_elifs k _) as [l s3] eqn:E. injection H as <- <-. apply IH in E. eapply vars_trans; [|exact E]. now constructor. }
    assert (vars_eq s2 s3 /\ cur s3 = cur s2) as [V3 C3]. { destruct el; injection E3 as <- <-; split; try reflexivity; now constructor. }
    split; [|split].
    - eapply vars_trans with (σ1 := s1); [now constructor|]. eapply vars_trans; [exact V2|]. eapply vars_trans; [exact V3|]. now constructor.
    - change (cur s4) with (cur s3). rewrite C3, C2. reflexivity.
    - intros x. unfold s4. rewrite items_block, M3, M2. unfold s1. apply items_block. }
  (* the first condition *)
  destruct (branch_ir id (len σ1) (next_block eb lb e) s4) as [s5| | |] eqn:EB; try discriminate. cbn [obind] in H.
  unfold branch_ir in EB. destruct (load_value id s4) as [[o s7]| | |] eqn:EL; try discriminate. cbn [obind] in EB. injection EB as <-. pose proof (iext_load _ _ _ _ EL) as X.
  pose proof (frame_iext P _ _ (ready_frame _ _ _ _ G4) X) as FX. pose proof (frame_trans _ _ _ _ _ _ Hc G4 FX) as F7. assert (forall x, In x (len σ1 :: Q) -> insd s7 x = true) as I7 by (intros; rewrite (iext_insd _ _ _ X); auto).
  assert (In (next_block eb lb e) (len σ1 :: Q)) as HnQ by (right; apply next_block_in).
  set (s6 := put (CondBr o (len σ1) (next_block eb lb e)) s7) in *.
  assert (frame P (len σ1 :: Q) σ s6 true) as F6. { apply frame_term; auto. intros x [<-|[<-|[]]]; right; (split; [|apply I7; cbn; auto]); [apply (f_pend _ _ _ _ _ G4); cbn; auto|apply (f_pend _ _ _ _ _ G4); assumption]. }
  assert (kept σ s6) as K6. { eapply kept_trans; [exact K4|]. eapply kept_trans; [apply same_kept, X|apply kept_put]. }
  assert (forall x, In x (len σ1 :: Q) -> insd s6 x = true) as I6. { intros x Hx. unfold s6. rewrite insd_put. auto. }
  assert (has_pred e s6 = match eb, lb with [], None => true | _, _ => false end) as HP6.
  { unfold s6. rewrite pred_put by fr F7. cbn [targets existsb]. rewrite orb_false_r.
    rewrite (pred_frame _ _ _ _ _ e FX), HP4.
    - pose proof (f_nodup _ _ _ _ _ G4) as ND. inversion ND as [|? ? ND1 ND2]; subst. rewrite next_block_e by assumption. replace (e =? len σ1) with false; [reflexivity|]. symmetry. apply Nat.eqb_neq. intros E. apply ND1. now rewrite <- E.
    - apply (f_pend _ _ _ _ _ G4). cbn; auto.
    - intros Hin. rewrite Forall_forall in HD. specialize (HD _ Hin). destruct (f_pend _ _ _ _ _ G4 e); [cbn; auto|]. lia. }
  destruct (blist b (set_cur (len σ1) s6)) as [sb| | |] eqn:E7; try discriminate. cbn [obind] in H.
  destruct (branch_frame llvm19 op_fun fsig b P (len σ1) Q e σ s6 sb) as (_ & _ & F7' & K7 & I7' & HP7 & _); auto.
  change (end_if e sb) with (closing e sb) in H.
  destruct (build_elifs _ _ _ _ lb e es eb (closing e sb)) as [s8| | |] eqn:E8; try discriminate. cbn [obind] in H.
  destruct (elifs_frame llvm19 op_fun fsig es IHes lb e eb σ (closing e sb) s8 P) as (F8 & K8 & I8 & HP8); auto.
  assert (exists s9, Ret (finish_condition e s9) = Ret σ' /\ match el, lb with
    | Some ss, Some l => exists sl, blist ss (set_cur l s8) = Ret sl /\ s9 = end_branch l e sl
    | None, None => s9 = s8
    | _, _ => False
    end /\
    has_pred e s9 = negb (match el with Some ss => last_leaves (map denote_stmt b) && forallb elif_leaves es && last_leaves (map denote_stmt ss) | None => false end)) as (s9 & E9 & Hel & HP9).
  { destruct el as [ss|], lb as [l|]; try contradiction.
    - apply andb_true_iff in Sel as [Sel1 Sel2]. destruct (blist ss (set_cur l s8)) as [s9| | |] eqn:E9; try discriminate. cbn [obind] in H.
      destruct (branch_frame llvm19 op_fun fsig ss P l [e] e σ s8 s9) as (_ & _ & F9 & K9 & I9 & HP9 & Eb); auto. { cbn; auto. } exists (end_branch l e s9). split; [exact H|]. split; [eauto|].
      rewrite (Eb Sel2). rewrite HP9, HP8, HP7, HP6.
      destruct eb, es; try discriminate Hle; cbn [orb]; rewrite !negb_andb, ?orb_false_r; reflexivity.
    - cbn [obind] in H. exists s8. split; [exact H|]. split; [reflexivity|]. rewrite HP8, HP7, HP6. destruct eb, es; try discriminate Hle; cbn [orb negb]; rewrite ?orb_true_r; reflexivity. }
  injection E9 as <-.
  exists id, σ1, s4, o, s7, (len σ1), eb, lb, e, sb, s8, s9. cbn zeta. fold s6. fold Q. split; [first [reflexivity|assumption]|]. split; [assumption|]. split; [assumption|]. split; [assumption|]. split; [assumption|].
  split; [fr G4|]. split; [auto|]. split; [assumption|]. split; [assumption|]. split; [assumption|]. split; [reflexivity|]. assumption.
Qed.
End Flow.
