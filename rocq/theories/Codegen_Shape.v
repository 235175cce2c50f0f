(** The blocks of generated code: what statements change, and that they end in one terminator. *)
From Coq Require Import Ascii String List Bool Arith ZArith Lia.
Import ListNotations.
From Verif Require Import Base Lexer_Model Lexer_Proofs Op_Model Op_Lemmas Number_Model Parser_Model Parser_Spec Parser_Print Ir_Model Codegen_Model Codegen_Spec Codegen_Lemmas.

Definition oall {A} (P : A -> Prop) (o : option A) : Prop := match o with Some a => P a | None => True end.
Section StmtInd.
Variable P : stmt -> Prop.
Hypothesis Hret : forall e, P (S_return e).
Hypothesis Hexpr : forall e, P (S_expr e).
Hypothesis Hwhile : forall c b, Forall P b -> P (S_while c b).
Hypothesis Hif : forall c b es el, Forall P b -> Forall (fun x => Forall P (snd x)) es -> oall (Forall P) el -> P (S_ifelse c b es el).
Hypothesis Hcont : forall p, P (S_continue p).
Hypothesis Hbrk : forall p, P (S_break p).
Fixpoint stmt_ind2 (s : stmt) : P s :=
  let list_ind := fix list_ind (l : list stmt) : Forall P l :=
    match l with [] => Forall_nil _ | s :: l' => Forall_cons _ (stmt_ind2 s) (list_ind l') end in
  match s with
  | S_return e => Hret e
  | S_expr e => Hexpr e
  | S_while c b => Hwhile c b (list_ind b)
  | S_ifelse c b es el =>
      Hif c b es el (list_ind b)
        ((fix elifs_ind (l : list (operand * list stmt)) : Forall (fun x => Forall P (snd x)) l :=
            match l with [] => Forall_nil _ | (c, b) :: l' => Forall_cons _ (list_ind b : Forall P (snd (c, b))) (elifs_ind l') end) es)
        (match el as el0 return oall (Forall P) el0 with Some b => list_ind b | None => I end)
  | S_continue p => Hcont p
  | S_break p => Hbrk p
  end.
End StmtInd.

(** ** Expressions append instructions to the insertion block *)
Record same (σ σ' : cg) : Prop := {
  m_cur : cur σ' = cur σ; m_loops : loops σ' = loops σ; m_exit : exit_b σ' = exit_b σ; m_rty : ret_ty σ' = ret_ty σ; m_rslot : ret_slot σ' = ret_slot σ }.
Lemma same_refl σ : same σ σ. Proof. now constructor. Qed.
Lemma same_trans σ σ1 σ2 : same σ σ1 -> same σ1 σ2 -> same σ σ2.
Proof. intros [] []. constructor; congruence. Qed.
Definition iext (σ σ' : cg) : Prop := same σ σ' /\ exists xs, blks σ' = emit_at (cur σ) (map Ins xs) (blks σ).
Lemma iext_refl σ : iext σ σ.
Proof. split; [apply same_refl|]. exists []. now rewrite emit_at_nil. Qed.
Lemma iext_trans σ σ1 σ2 : iext σ σ1 -> iext σ1 σ2 -> iext σ σ2.
Proof.
  intros [A (xs & E)] [B (ys & F)]. split; [eapply same_trans; eauto|]. exists (xs ++ ys). rewrite F, E, (m_cur _ _ A), map_app. apply emit_at_app.
Qed.
Lemma iext_blks σ σ' : blks σ' = blks σ -> same σ σ' -> iext σ σ'.
Proof. intros E S. split; [assumption|]. exists []. now rewrite emit_at_nil. Qed.
Lemma iext_put i σ : iext σ (put (Ins i) σ).
Proof. rewrite put_emit. split; [now constructor|]. now exists [i]. Qed.
Ltac ibinds :=
  repeat match goal with
    | H : obind ?e _ = Ret _ |- _ => let E := fresh "E" in destruct e eqn:E; try discriminate H; cbn [obind] in H
    | H : (let (_, _) := ?p in _) = Ret _ |- _ => let E := fresh "E" in destruct p eqn:E; try discriminate H; cbn beta iota in H
    | H : (if ?b then _ else _) = Ret _ |- _ => let E := fresh "E" in destruct b eqn:E; try discriminate H
    end.
Lemma iext_load id σ o σ' : load_value id σ = Ret (o, σ') -> iext σ σ'.
Proof.
  unfold load_value. intros H. ibinds. destruct (v_loc a); try discriminate.
  - cbn in H. injection H as <- <-. eapply iext_trans; [|apply iext_put]. apply iext_blks; [reflexivity|now constructor].
  - injection H as <- <-. apply iext_refl.
Qed.
Lemma iext_new t l σ : iext σ (snd (new_value t l σ)).
Proof. apply iext_blks; [reflexivity|now constructor]. Qed.
Lemma iext_copy l r σ σ' : copy_from l r σ = Ret σ' -> iext σ σ'.
Proof.
  unfold copy_from. intros H. ibinds.
  - destruct (v_loc a0); try discriminate. { injection H as <-. apply iext_blks; [reflexivity|now constructor]. }
    ibinds. destruct (v_loc a); try discriminate. cbn in H. injection H as <-. eapply iext_trans; [|apply iext_put]. eapply iext_trans; [|apply iext_put]. apply iext_blks; [reflexivity|now constructor].
  - destruct (v_loc a); try discriminate. ibinds. injection H as <-. eapply iext_trans; [eapply iext_load; eauto|apply iext_put].
Qed.
Lemma iext_cast id t σ id' σ' : cast_to id t σ = Ret (id', σ') -> iext σ σ'.
Proof.
  unfold cast_to. intros H. ibinds. { injection H as <- <-. apply iext_refl. }
  destruct t; try discriminate. ibinds. injection H as <- <-. eapply iext_trans; [eapply iext_load; eauto|]. eapply iext_trans; [|apply (iext_new (TNum n) (LVal (OReg n0)))]. cbn in E5. injection E5 as <- <-.
  eapply iext_trans; [|apply iext_put]. apply iext_blks; [reflexivity|now constructor].
Qed.
Section Blocks.
Variable llvm19 : bool.
Variable op_fun : optok -> vty -> option vty.
Variable fsig : text -> option (list vty * vty).
Notation bnode := (build_node llvm19 op_fun fsig).
Notation bnodes := (build_nodes bnode).
Lemma iext_put_op b op t res os σ id σ' : put_op op_fun b op t res os σ = Ret (id, σ') -> iext σ σ'.
Proof.
  unfold put_op. cbn [new_reg]. intros H. destruct b; [|destruct (op_fun op t); [|discriminate]]; injection H as <- <-;
    (eapply iext_trans; [|apply iext_new]); (eapply iext_trans; [|apply iext_put]); apply iext_blks; try reflexivity; now constructor.
Qed.
Lemma iext_unary op id σ r σ' : unary_op_ir llvm19 op_fun op id σ = Ret (r, σ') -> iext σ σ'.
Proof. unfold unary_op_ir. intros H. ibinds. eapply iext_trans; [eapply iext_load; eauto|eapply iext_put_op; eauto]. Qed.
Lemma iext_binary op l r σ id σ' : binary_op_ir op_fun op l r σ = Ret (id, σ') -> iext σ σ'.
Proof.
  unfold binary_op_ir. intros H. destruct (plain_op op) as [op' na]. destruct (optok_eqb op' OP_ASSIGN).
  { ibinds. injection H as <- <-. eapply iext_copy; eauto. }
  destruct (obj l σ) as [vl| | |]; try discriminate. cbn [obind] in H. destruct (obj r σ) as [vr| | |]; try discriminate. cbn [obind] in H.
  match type of H with obind ?e _ = _ => destruct e as [[[[t l'] r'] σ1]| | |] eqn:EP; try discriminate end. cbn [obind] in H.
  assert (iext σ σ1) as A.
  { clear H. ibinds; injection EP as <- <- <- <-; [apply iext_refl|]. eapply iext_trans; eapply iext_cast; eauto. }
  clear EP. ibinds; injection H as <- <-; repeat (eapply iext_trans; [first [exact A|eapply iext_load; eassumption|eapply iext_put_op; eassumption]|]); first [eapply iext_copy; eassumption|apply iext_refl].
Qed.
Lemma iext_ternary op a b c σ id σ' : ternary_op_ir op_fun op a b c σ = Ret (id, σ') -> iext σ σ'.
Proof.
  unfold ternary_op_ir. intros H. destruct (obj a σ) as [va| | |]; try discriminate. cbn [obind] in H. destruct (obj b σ) as [vb| | |]; try discriminate. cbn [obind] in H.
  destruct (obj c σ) as [vc| | |]; try discriminate. cbn [obind] in H.
  match type of H with obind ?e _ = _ => destruct e as [[[[[t a'] b'] c'] σ1]| | |] eqn:EP; try discriminate end. cbn [obind] in H.
  assert (iext σ σ1) as A.
  { clear H. destruct (optok_eqb op OP_CONDITIONAL); ibinds; injection EP as <- <- <- <- <-; repeat (eapply iext_trans; [eapply iext_cast; eassumption|]); apply iext_refl. }
  clear EP. ibinds. repeat (eapply iext_trans; [first [exact A|eapply iext_load; eassumption]|]). eapply iext_put_op; eauto.
Qed.
Lemma iext_call_args ids ts σ os σ' : call_args ids ts σ = Ret (os, σ') -> iext σ σ'.
Proof.
  revert ts σ os σ'. induction ids as [|id ids IH]; intros [|t ts] σ os σ' H; try discriminate. { injection H as <- <-. apply iext_refl. }
  cbn [call_args] in H. ibinds. injection H as <- <-. eapply iext_trans; [eapply iext_cast; eauto|]. eapply iext_trans; [eapply iext_load; eauto|]. eauto.
Qed.
Lemma iext_call f ids σ id σ' : call_function fsig f ids σ = Ret (id, σ') -> iext σ σ'.
Proof.
  unfold call_function. destruct (fsig f) as [[ts rt]|]; [|discriminate]. intros H. destruct (call_args ids ts σ) as [[os σ1]| | |] eqn:E; try discriminate. cbn [obind new_reg] in H. injection H as <- <-.
  eapply iext_trans; [eapply iext_call_args; eauto|]. eapply iext_trans; [|apply (iext_new rt (LVal (OReg (nreg σ1))))]. eapply iext_trans; [|apply iext_put]. apply iext_blks; [reflexivity|now constructor].
Qed.
Lemma iext_var x σ id σ' : get_local_var x σ = Ret (id, σ') -> iext σ σ'.
Proof.
  unfold get_local_var. destruct (find_text _ _). { injection 1 as <- <-. apply iext_refl. }
  intros H. ibinds; injection H as <- <-; apply iext_blks; try reflexivity; now constructor.
Qed.
Lemma iext_void x σ : iext σ (snd (new_void x σ)).
Proof. unfold new_void. cbn. destruct (find_text _ _); (apply iext_blks; [reflexivity|now constructor]). Qed.
Lemma iext_eval_nodes ns st σ st' σ' : eval_nodes llvm19 op_fun ns st σ = Ret (st', σ') -> iext σ σ'.
Proof.
  revert st σ. induction ns as [|n ns IH]; intros st σ H. { injection H as <- <-. apply iext_refl. }
  cbn [eval_nodes] in H. ibinds. eapply iext_trans; [|eauto]. clear IH H. destruct n as [id|op]; cbn [eval_node] in E. { injection E as <- <-. apply iext_refl. }
  destruct (operand_count op) as [[|[|[|[|]]]]|]; try discriminate; destruct st as [|x [|y [|z st]]]; try discriminate; ibinds; injection E as <- <-;
    first [eapply iext_unary; eassumption|eapply iext_binary; eassumption|eapply iext_ternary; eassumption].
Qed.
Lemma iext_nodes n : forall σ e σ', bnode n σ = Ret (e, σ') -> iext σ σ'.
Proof.
  revert n. fix IH 1. intros [b|v ty|x|x|f args|op|] σ e σ' H; cbn [build_node] in H; try discriminate.
  - injection H as <- <-. apply iext_new.
  - ibinds. injection H as <- <-. cbn in E0. injection E0 as <- <-. apply iext_new.
  - ibinds. injection H as <- <-. eapply iext_var; eauto.
  - ibinds. injection H as <- <-. pose proof (iext_void x σ) as Q. now rewrite E in Q.
  - destruct (build_args _ _ _ args σ) as [[ids σ1]| | |] eqn:E; try discriminate. cbn [obind] in H. destruct (call_function fsig f ids σ1) as [[id σ2]| | |] eqn:E0; try discriminate. cbn [obind] in H.
    injection H as <- <-. eapply iext_trans; [|eapply iext_call; eauto]. clear E0 id σ2. revert σ ids σ1 E. induction args as [|ns args IHa]; intros σ ids σ1 E. { injection E as <- <-. apply iext_refl. }
    cbn [build_args] in E. destruct (build_rpn_with _ _ _ ns σ) as [[id σ2]| | |] eqn:E0; try discriminate. cbn [obind] in E. destruct (build_args _ _ _ args σ2) as [[ids' σ3]| | |] eqn:E1; try discriminate. cbn [obind] in E. injection E as <- <-.
    eapply iext_trans; [|eauto]. clear IHa E1. unfold build_rpn_with in E0. destruct (bnodes ns σ) as [[es σ4]| | |] eqn:E; try discriminate. cbn [obind] in E0. unfold eval_stack in E0.
    destruct (eval_nodes _ _ es [] σ4) as [[st σ5]| | |] eqn:E1; try discriminate. cbn [obind] in E0. destruct st as [|? [|]]; try discriminate. injection E0 as <- <-.
    eapply iext_trans; [|eapply iext_eval_nodes; eauto]. clear E1. revert σ es σ4 E. induction ns as [|m ns IHn]; intros σ es σ4 E. { injection E as <- <-. apply iext_refl. }
    cbn [build_nodes] in E. destruct (bnode m σ) as [[e σ6]| | |] eqn:E1; try discriminate. cbn [obind] in E. destruct (bnodes ns σ6) as [[es' σ7]| | |] eqn:E2; try discriminate. cbn [obind] in E. injection E as <- <-.
    eapply iext_trans; [eapply IH; eassumption|]. eapply IHn; eassumption.
  - injection H as <- <-. apply iext_refl.
Qed.
Lemma iext_expr o σ id σ' : build_expr llvm19 op_fun fsig o σ = Ret (id, σ') -> iext σ σ'.
Proof.
  unfold build_expr, build_rpn, build_rpn_with. intros H. destruct (bnodes (emit o) σ) as [[es σ1]| | |] eqn:E; try discriminate. cbn [obind] in H. unfold eval_stack in H.
  destruct (eval_nodes _ _ es [] σ1) as [[st σ2]| | |] eqn:E1; try discriminate. cbn [obind] in H. destruct st as [|? [|]]; try discriminate. injection H as <- <-.
  eapply iext_trans; [|eapply iext_eval_nodes; eauto]. clear E1. revert σ es σ1 E. induction (emit o) as [|m ns IH]; intros σ es σ1 E. { injection E as <- <-. apply iext_refl. }
  cbn [build_nodes] in E. destruct (bnode m σ) as [[e σ6]| | |] eqn:E1; try discriminate. cbn [obind] in E. destruct (bnodes ns σ6) as [[es' σ7]| | |] eqn:E2; try discriminate. cbn [obind] in E. injection E as <- <-.
  eapply iext_trans; [eapply iext_nodes; eauto|eauto].
Qed.
Lemma iext_cond o σ id σ' : build_cond llvm19 op_fun fsig o σ = Ret (id, σ') -> iext σ σ'.
Proof. unfold build_cond. intros H. ibinds. injection H as <- <-. eapply iext_expr; eauto. Qed.

(** ** Blocks *)
Notation items σ b := (items_of (blks σ) b).
Notation insd σ b := (inserted (blks σ) b).
Notation len σ := (length (blks σ)).
Definition opn (l : list item) : bool := forallb (fun j => negb (is_term j)) l.
Definition tgt (σ : cg) (b t : nat) : Prop := In t (flat_map targets (items σ b)).
Record frame (P Q : list nat) (σ σ' : cg) (lv : bool) : Prop := {
  f_len : len σ <= len σ';
  f_old : forall b, b < len σ -> b <> cur σ -> nth_error (blks σ') b = nth_error (blks σ) b;
  f_in : insd σ' (cur σ) = insd σ (cur σ);
  f_ext : exists r, items σ' (cur σ) = items σ (cur σ) ++ r;
  f_move : cur σ' = cur σ \/ (len σ <= cur σ' /\ closed (items σ' (cur σ)) = true);
  f_new : forall b, len σ <= b < len σ' -> b <> cur σ' -> In b Q \/ (insd σ' b = true -> closed (items σ' b) = true);
  f_pend : forall b, In b Q -> len σ <= b < len σ' /\ b <> cur σ' /\ items σ' b = [];
  f_nodup : NoDup Q;
  f_curlt : cur σ' < len σ';
  f_curin : insd σ' (cur σ') = true;
  f_last : if lv then closed (items σ' (cur σ')) = true else opn (items σ' (cur σ')) = true;
  f_tgt : forall b t, tgt σ' b t -> tgt σ b t \/ In t P \/ (len σ <= t /\ insd σ' t = true) }.
Ltac fr F := first [exact (f_len _ _ _ _ _ F)|exact (f_old _ _ _ _ _ F)|exact (f_in _ _ _ _ _ F)|exact (f_ext _ _ _ _ _ F)|exact (f_move _ _ _ _ _ F)|exact (f_new _ _ _ _ _ F)
  |exact (f_pend _ _ _ _ _ F)|exact (f_nodup _ _ _ _ _ F)|exact (f_curlt _ _ _ _ _ F)|exact (f_curin _ _ _ _ _ F)|exact (f_last _ _ _ _ _ F)|exact (f_tgt _ _ _ _ _ F)].
Definition ready (σ : cg) : Prop := cur σ < len σ /\ insd σ (cur σ) = true /\ opn (items σ (cur σ)) = true.

Lemma opn_app l l' : opn (l ++ l') = opn l && opn l'.
Proof. apply forallb_app. Qed.
Lemma opn_ins xs : opn (map Ins xs) = true.
Proof. induction xs; auto. Qed.
Lemma opn_targets l : opn l = true -> flat_map targets l = [].
Proof. induction l as [|[] l IH]; cbn; auto; discriminate. Qed.
Lemma opn_term l : opn l = true -> has_term l = false.
Proof.
  intros H. unfold has_term. destruct (rev l) as [|i r] eqn:E; [reflexivity|]. assert (In i l) as Hi by (rewrite <- (rev_involutive l), E; cbn; apply in_or_app; cbn; auto).
  unfold opn in H. rewrite forallb_forall in H. specialize (H _ Hi). now apply negb_true_iff.
Qed.
Lemma closed_term l : closed l = true -> has_term l = true.
Proof. unfold closed, has_term. destruct (rev l); [discriminate|]. intros H. apply andb_true_iff in H. apply H. Qed.
Lemma opn_closed l t : opn l = true -> is_term t = true -> closed (l ++ [t]) = true.
Proof.
  intros H Ht. unfold closed. rewrite rev_app_distr. cbn [rev app]. rewrite Ht. cbn [andb]. unfold opn in H. rewrite forallb_forall in *. intros x Hx. apply H. now apply in_rev.
Qed.
Lemma items_emit_same b l F : b < length F -> items_of (emit_at b l F) b = items_of F b ++ l.
Proof. intros H. unfold items_of. destruct (nth_error F b) eqn:E; [|apply nth_error_None in E; lia]. now rewrite (emit_at_same _ _ _ _ E). Qed.
Lemma items_emit_other b c l F : c <> b -> items_of (emit_at b l F) c = items_of F c.
Proof. intros H. unfold items_of. now rewrite emit_at_other. Qed.
Lemma inserted_emit b c l F : inserted (emit_at b l F) c = inserted F c.
Proof.
  unfold inserted. destruct (Nat.eq_dec c b) as [->|H]; [|now rewrite emit_at_other]. destruct (nth_error F b) eqn:E; [now rewrite (emit_at_same _ _ _ _ E)|]. unfold emit_at. now rewrite E, E.
Qed.
Lemma blks_put i σ : blks (put i σ) = emit_at (cur σ) [i] (blks σ).
Proof. now rewrite put_emit. Qed.
Lemma cur_put i σ : cur (put i σ) = cur σ.
Proof. now rewrite put_emit. Qed.
Lemma same_put i σ : same σ (put i σ).
Proof. rewrite put_emit. now constructor. Qed.

Lemma frame_refl P σ : ready σ -> frame P [] σ σ false.
Proof. intros (A & B & C). constructor; auto. - exists []. now rewrite app_nil_r. - lia. - intros b []. - constructor. Qed.
Lemma frame_weaken P P' Q σ σ' lv : (forall x, In x P -> In x P') -> frame P Q σ σ' lv -> frame P' Q σ σ' lv.
Proof. intros H []. constructor; auto. intros b t Ht. destruct (f_tgt0 _ _ Ht) as [|[|]]; auto. Qed.
Lemma frame_drop p P Q σ σ' lv : len σ <= p -> insd σ' p = true -> frame (p :: P) Q σ σ' lv -> frame P Q σ σ' lv.
Proof. intros H1 H2 []. constructor; auto. intros b t Ht. destruct (f_tgt0 _ _ Ht) as [|[[<-|]|]]; auto. Qed.
Lemma frame_ins P Q σ σ' lv b : cur σ < len σ -> frame P Q σ σ' lv -> b < len σ -> insd σ' b = insd σ b.
Proof. intros Hc F Hb. destruct (Nat.eq_dec b (cur σ)) as [->|H]; [apply F|]. unfold inserted. now rewrite (f_old _ _ _ _ _ F). Qed.
Lemma frame_items P Q σ σ' lv b : frame P Q σ σ' lv -> exists r, items σ' b = items σ b ++ r.
Proof.
  intros F. destruct (Nat.lt_ge_cases b (len σ)).
  - destruct (Nat.eq_dec b (cur σ)) as [->|Hn]; [apply F|]. exists []. unfold items_of. now rewrite (f_old _ _ _ _ _ F), app_nil_r.
  - exists (items σ' b). unfold items_of at 2. destruct (nth_error (blks σ) b) eqn:E; [apply nth_error_lt in E; lia|reflexivity].
Qed.
Lemma frame_trans P Q σ σ1 σ2 lv : cur σ < len σ -> frame P Q σ σ1 false -> frame P [] σ1 σ2 lv -> frame P Q σ σ2 lv.
Proof.
  intros Hc A B. assert (forall b, b < len σ1 -> b <> cur σ1 -> items σ2 b = items σ1 b) as Hi. { intros b H1 H2. unfold items_of. now rewrite (f_old _ _ _ _ _ B). }
  assert (forall b, b < len σ1 -> insd σ2 b = insd σ1 b) as Hs. { intros b Hb. eapply frame_ins; [apply (f_curlt _ _ _ _ _ A)|exact B|exact Hb]. }
  pose proof (f_len _ _ _ _ _ A) as L1. pose proof (f_len _ _ _ _ _ B) as L2.
  constructor; try fr B.
  - lia.
  - intros b Hb Hn. rewrite (f_old _ _ _ _ _ B); [apply A; auto|lia|]. destruct (f_move _ _ _ _ _ A) as [E|[E _]]; [congruence|lia].
  - rewrite Hs by lia. apply A.
  - destruct (frame_items _ _ _ _ _ (cur σ) A) as (r1 & E1), (frame_items _ _ _ _ _ (cur σ) B) as (r2 & E2). exists (r1 ++ r2). now rewrite E2, E1, app_assoc.
  - destruct (f_move _ _ _ _ _ A) as [E|[E1 E2]].
    + rewrite <- E. destruct (f_move _ _ _ _ _ B) as [E'|[E1' E2']]; [auto|]. right. split; [lia|assumption].
    + assert (cur σ <> cur σ1) by lia. right. split; [|rewrite Hi by lia; assumption]. destruct (f_move _ _ _ _ _ B) as [ -> |[E' _]]; lia.
  - intros b Hb Hn. destruct (Nat.lt_ge_cases b (len σ1)).
    + destruct (Nat.eq_dec b (cur σ1)) as [->|Hn1].
      * destruct (f_move _ _ _ _ _ B) as [E|[_ E]]; [congruence|]. auto.
      * rewrite Hi, Hs by auto. apply (f_new _ _ _ _ _ A); [lia|assumption].
    + assert (len σ1 <= b < len σ2) as Hb2 by lia. destruct (f_new _ _ _ _ _ B b Hb2 Hn) as [[]|]. auto.
  - intros b Hb. destruct (f_pend _ _ _ _ _ A _ Hb) as (H1 & H2 & H3). split; [lia|]. split; [|now rewrite Hi by (auto; lia)]. destruct (f_move _ _ _ _ _ B) as [ -> |[E _]]; [assumption|lia].
  - apply A.
  - intros b t Ht. destruct (f_tgt _ _ _ _ _ B _ _ Ht) as [H|[H|[H1 H2]]]; auto.
    + destruct (f_tgt _ _ _ _ _ A _ _ H) as [H1|[H1|[H1 H2]]]; auto. right. right. split; [assumption|]. rewrite Hs; [assumption|].
      unfold inserted in H2. destruct (nth_error (blks σ1) t) eqn:E; [|discriminate]. eapply nth_error_lt; eauto.
    + right. right. split; [lia|assumption].
Qed.
Lemma frame_iext P σ σ' : ready σ -> iext σ σ' -> frame P [] σ σ' false.
Proof.
  intros (Hc & Hi & Ho) [S (xs & E)]. assert (items σ' (cur σ) = items σ (cur σ) ++ map Ins xs) as Ei by (rewrite E; now apply items_emit_same).
  assert (forall b, insd σ' b = insd σ b) as Es by (intros; rewrite E; apply inserted_emit).
  assert (len σ' = len σ) as El by (rewrite E; apply emit_at_length). pose proof (m_cur _ _ S) as Ec.
  constructor; try rewrite !Ec; try rewrite !El; auto.
  - intros b H1 H2. rewrite E. now apply emit_at_other.
  - eauto.
  - intros b H. lia.
  - intros b [].
  - constructor.
  - now rewrite Es.
  - now rewrite Ei, opn_app, Ho, opn_ins.
  - intros b t Ht. left. unfold tgt in *. destruct (Nat.eq_dec b (cur σ)) as [->|Hn].
    + rewrite Ei, flat_map_app in Ht. rewrite (opn_targets (map Ins xs)) in Ht by apply opn_ins. now rewrite app_nil_r in Ht.
    + rewrite E, items_emit_other in Ht; assumption.
Qed.
Lemma ready_frame P Q σ σ' : frame P Q σ σ' false -> ready σ'.
Proof. intros F. repeat split; fr F. Qed.
(** A terminator *)
Lemma frame_term P Q σ σ1 i : cur σ < len σ -> frame P Q σ σ1 false -> is_term i = true ->
  (forall x, In x (targets i) -> In x P \/ (len σ <= x /\ insd σ1 x = true)) -> frame P Q σ (put i σ1) true.
Proof.
  intros Hc F Ht HT. assert (items (put i σ1) (cur σ1) = items σ1 (cur σ1) ++ [i]) as Ei by (rewrite blks_put; apply items_emit_same; fr F).
  assert (forall b, b <> cur σ1 -> items (put i σ1) b = items σ1 b) as En by (intros; rewrite blks_put; now apply items_emit_other).
  assert (forall b, insd (put i σ1) b = insd σ1 b) as Es by (intros; rewrite blks_put; apply inserted_emit).
  assert (len (put i σ1) = len σ1) as El by (rewrite blks_put; apply emit_at_length). pose proof (cur_put i σ1) as Ec.
  constructor; try rewrite !Ec; try rewrite !El; try rewrite !Es; try fr F.
  - intros b H1 H2. rewrite blks_put, emit_at_other; [now apply F|]. destruct (f_move _ _ _ _ _ F) as [E|[E _]]; [congruence|lia].
  - destruct (f_ext _ _ _ _ _ F) as (r & Er). destruct (Nat.eq_dec (cur σ) (cur σ1)) as [E|E].
    + rewrite E, Ei, <- E, Er, <- app_assoc. eauto.
    + rewrite En, Er by auto. eauto.
  - destruct (f_move _ _ _ _ _ F) as [E|[E1 E2]]; [auto|]. right. split; [assumption|]. rewrite En by lia. assumption.
  - intros b Hb Hn. rewrite Es, En by auto. now apply F.
  - intros b Hb. destruct (f_pend _ _ _ _ _ F _ Hb) as (H1 & H2 & H3). rewrite En by auto. auto.
  - rewrite Ei. apply opn_closed; [apply F|assumption].
  - intros b t H. rewrite Es. unfold tgt in H. destruct (Nat.eq_dec b (cur σ1)) as [->|Hn].
    + rewrite Ei, flat_map_app in H. apply in_app_or in H as [H|H]; [now apply (f_tgt _ _ _ _ _ F)|]. cbn in H. rewrite app_nil_r in H. auto.
    + rewrite En in H by auto. now apply (f_tgt _ _ _ _ _ F).
Qed.
(** On to a pending block *)
Lemma frame_goto P Q1 nb Q2 σ σ1 : cur σ < len σ -> frame P (Q1 ++ nb :: Q2) σ σ1 true -> insd σ1 nb = true -> frame P (Q1 ++ Q2) σ (set_cur nb σ1) false.
Proof.
  intros Hc F Hi. destruct (f_pend _ _ _ _ _ F nb) as (H1 & H2 & H3); [apply in_elt|]. pose proof (NoDup_remove_1 _ _ _ (f_nodup _ _ _ _ _ F)) as ND. pose proof (NoDup_remove_2 _ _ _ (f_nodup _ _ _ _ _ F)) as NI.
  constructor; cbn [set_cur blks cur]; try fr F; auto.
  - right. split; [lia|]. destruct (f_move _ _ _ _ _ F) as [E|[_ E]]; [|assumption]. rewrite <- E. apply (f_last _ _ _ _ _ F).
  - intros b Hb Hn. destruct (Nat.eq_dec b (cur σ1)) as [->|Hn1]; [right; intros _; apply (f_last _ _ _ _ _ F)|].
    destruct (f_new _ _ _ _ _ F b Hb Hn1) as [H|H]; [left|auto]. apply in_app_or in H as [H|[H|H]]; [|congruence|]; apply in_or_app; auto.
  - intros b Hb. destruct (f_pend _ _ _ _ _ F b) as (A & B & C). { apply in_app_or in Hb as [H|H]; apply in_or_app; cbn; auto. }
    split; [assumption|]. split; [|assumption]. intros ->. contradiction.
  - lia.
  - rewrite H3. reflexivity.
Qed.
Lemma frame_insert P Q nb σ σ1 lv : cur σ < len σ -> frame P Q σ σ1 lv -> In nb Q -> frame P Q σ (set_inserted true nb σ1) lv.
Proof.
  intros Hc F Hq. destruct (f_pend _ _ _ _ _ F nb Hq) as (H1 & H2 & H3). destruct (nth_error (blks σ1) nb) as [x|] eqn:Ex; [|apply nth_error_None in Ex; lia].
  unfold set_inserted. rewrite Ex. set (σ2 := set_blks _ σ1). assert (items_of (blks σ1) nb = b_items x) as Eb by (unfold items_of; now rewrite Ex).
  assert (forall b, b <> nb -> nth_error (blks σ2) b = nth_error (blks σ1) b) as En by (intros; cbn; apply set_nth_other; [lia|assumption]).
  assert (nth_error (blks σ2) nb = Some (Blk true (b_items x))) as Es by (cbn; apply set_nth_same; lia).
  assert (len σ2 = len σ1) as El by (cbn; apply set_nth_length; lia).
  assert (forall b, items σ2 b = items σ1 b) as Ei. { intros b. destruct (Nat.eq_dec b nb) as [->|Hb]; [rewrite Eb; unfold items_of; now rewrite Es|unfold items_of; now rewrite En]. }
  assert (forall b, b <> nb -> insd σ2 b = insd σ1 b) as Ej by (intros; unfold inserted; now rewrite En).
  assert (cur σ2 = cur σ1) as Ec by reflexivity. clearbody σ2.
  constructor; try rewrite !Ec; try rewrite !El; try rewrite !Ei; try fr F.
  - intros b A B. rewrite En by lia. now apply F.
  - rewrite Ej by lia. apply F.
  - intros b A B. rewrite Ei. destruct (Nat.eq_dec b nb) as [->|Hb]; [auto|]. rewrite Ej by auto. now apply F.
  - intros b A. rewrite Ei. now apply F.
  - rewrite Ej by auto. apply F.
  - intros b t A. unfold tgt in A. rewrite Ei in A. destruct (f_tgt _ _ _ _ _ F b t A) as [B|[B|[B C]]]; auto. right. right. split; [assumption|].
    destruct (Nat.eq_dec t nb) as [->|Hb]; [unfold inserted; now rewrite Es|now rewrite Ej].
Qed.
Lemma insd_insert nb σ : nb < len σ -> insd (set_inserted true nb σ) nb = true.
Proof.
  intros H. unfold set_inserted. destruct (nth_error (blks σ) nb) eqn:E; [|apply nth_error_None in E; lia]. unfold inserted. cbn. now rewrite set_nth_same.
Qed.
Lemma insd_insert_mono nb b σ : insd σ b = true -> insd (set_inserted true nb σ) b = true.
Proof.
  intros H. unfold set_inserted. destruct (nth_error (blks σ) nb) eqn:E; [|assumption]. unfold inserted in *. cbn. destruct (Nat.eq_dec b nb) as [->|Hn].
  - rewrite set_nth_same; [reflexivity|]. eapply nth_error_lt; eauto.
  - rewrite set_nth_other; [assumption|eapply nth_error_lt; eauto|assumption].
Qed.
Lemma frame_remove P Q1 nb Q2 σ σ1 lv : cur σ < len σ -> frame P (Q1 ++ nb :: Q2) σ σ1 lv -> (forall b, ~ tgt σ1 b nb) -> frame P (Q1 ++ Q2) σ (set_inserted false nb σ1) lv.
Proof.
  intros Hc F HT. destruct (f_pend _ _ _ _ _ F nb) as (H1 & H2 & H3); [apply in_elt|]. destruct (nth_error (blks σ1) nb) as [x|] eqn:Ex; [|apply nth_error_None in Ex; lia].
  unfold set_inserted. rewrite Ex. set (σ2 := set_blks _ σ1). assert (items_of (blks σ1) nb = b_items x) as Eb by (unfold items_of; now rewrite Ex).
  assert (forall b, b <> nb -> nth_error (blks σ2) b = nth_error (blks σ1) b) as En by (intros; cbn; apply set_nth_other; [lia|assumption]).
  assert (nth_error (blks σ2) nb = Some (Blk false (b_items x))) as Es by (cbn; apply set_nth_same; lia).
  assert (len σ2 = len σ1) as El by (cbn; apply set_nth_length; lia).
  assert (forall b, items σ2 b = items σ1 b) as Ei. { intros b. destruct (Nat.eq_dec b nb) as [->|Hb]; [rewrite Eb; unfold items_of; now rewrite Es|unfold items_of; now rewrite En]. }
  assert (forall b, b <> nb -> insd σ2 b = insd σ1 b) as Ej by (intros; unfold inserted; now rewrite En).
  assert (insd σ2 nb = false) as Ek by (unfold inserted; now rewrite Es).
  assert (cur σ2 = cur σ1) as Ec by reflexivity. clearbody σ2.
  constructor; try rewrite !Ec; try rewrite !El; try rewrite !Ei; try fr F.
  - intros b A B. rewrite En by lia. now apply F.
  - rewrite Ej by lia. apply F.
  - intros b A B. rewrite Ei. destruct (Nat.eq_dec b nb) as [->|Hb]; [right; congruence|]. rewrite Ej by auto. destruct (f_new _ _ _ _ _ F b A B) as [C|C]; [left|auto].
    apply in_app_or in C as [C|[C|C]]; [|congruence|]; apply in_or_app; auto.
  - intros b A. rewrite Ei. apply (f_pend _ _ _ _ _ F). apply in_app_or in A as [A|A]; apply in_or_app; cbn; auto.
  - eapply NoDup_remove_1, F.
  - rewrite Ej by auto. apply F.
  - intros b t A. unfold tgt in A. rewrite Ei in A. destruct (f_tgt _ _ _ _ _ F b t A) as [B|[B|[B C]]]; auto. right. right. split; [assumption|].
    rewrite Ej; [assumption|]. intros ->. apply (HT b), A.
Qed.
Lemma nth_app_lt {A} (l l' : list A) b : b < length l -> nth_error (l ++ l') b = nth_error l b.
Proof. apply nth_error_app1. Qed.
Lemma items_block v σ b : items (snd (new_block v σ)) b = items σ b.
Proof.
  unfold items_of. cbn. destruct (Nat.lt_ge_cases b (len σ)); [now rewrite nth_app_lt|]. replace (nth_error (blks σ) b) with (@None block) by (symmetry; now apply nth_error_None).
  rewrite nth_error_app2 by assumption. destruct (b - len σ) as [|[|]]; reflexivity.
Qed.
Lemma frame_block P Q v σ σ1 lv : cur σ < len σ -> frame P Q σ σ1 lv -> frame P (Q ++ [len σ1]) σ (snd (new_block v σ1)) lv.
Proof.
  intros Hc F. cbn [new_block snd]. set (σ2 := set_blks _ σ1).
  assert (forall b, b < len σ1 -> nth_error (blks σ2) b = nth_error (blks σ1) b) as En by (intros; cbn; now apply nth_app_lt).
  assert (nth_error (blks σ2) (len σ1) = Some (Blk v [])) as Es. { cbn. rewrite nth_error_app2, Nat.sub_diag by lia. reflexivity. }
  assert (len σ2 = S (len σ1)) as El by (cbn; rewrite app_length; cbn; lia).
  assert (forall b, items σ2 b = items σ1 b) as Ei.
  { intros b. unfold items_of. destruct (Nat.lt_ge_cases b (len σ1)); [now rewrite En|]. replace (nth_error (blks σ1) b) with (@None block) by (symmetry; now apply nth_error_None).
    destruct (Nat.eq_dec b (len σ1)) as [->|Hb]; [now rewrite Es|]. replace (nth_error (blks σ2) b) with (@None block) by (symmetry; apply nth_error_None; lia). reflexivity. }
  assert (forall b, b < len σ1 -> insd σ2 b = insd σ1 b) as Ej by (intros; unfold inserted; now rewrite En).
  assert (cur σ2 = cur σ1) as Ec by reflexivity. clearbody σ2. pose proof (f_len _ _ _ _ _ F). pose proof (f_curlt _ _ _ _ _ F).
  constructor; try rewrite !Ec; try rewrite !El; try rewrite !Ei; try fr F; try lia.
  - intros b A B. rewrite En by lia. now apply F.
  - rewrite Ej by lia. apply F.
  - intros b A B. rewrite Ei. destruct (Nat.eq_dec b (len σ1)) as [->|Hb]; [left; apply in_or_app; cbn; auto|]. rewrite Ej by lia. destruct (f_new _ _ _ _ _ F b) as [C|C]; auto; [lia|]. left. apply in_or_app. auto.
  - intros b A. rewrite Ei. apply in_app_or in A as [A|[<-|[]]].
    + destruct (f_pend _ _ _ _ _ F b A) as (B & C & D). repeat split; auto; lia.
    + split; [lia|]. split; [lia|]. unfold items_of. destruct (nth_error (blks σ1) (len σ1)) eqn:E; [apply nth_error_lt in E; lia|reflexivity].
  - rewrite <- (rev_involutive (Q ++ _)), rev_app_distr. apply NoDup_rev. cbn [rev app]. constructor; [|apply NoDup_rev, F].
    intros A. apply in_rev in A. apply (f_pend _ _ _ _ _ F) in A. lia.
  - rewrite Ej by lia. apply F.
  - intros b t A. unfold tgt in A. rewrite Ei in A. destruct (f_tgt _ _ _ _ _ F b t A) as [B|[B|[B C]]]; auto. right. right. split; [assumption|].
    rewrite Ej; [assumption|]. unfold inserted in C. destruct (nth_error (blks σ1) t) eqn:E; [|discriminate]. eapply nth_error_lt; eauto.
Qed.
Lemma frame_set_loops P Q l σ σ1 lv : frame P Q σ σ1 lv -> frame P Q σ (set_loops l σ1) lv.
Proof. intros F. destruct F. constructor; assumption. Qed.

(** *** Predecessors *)
Lemma has_pred_iff e σ : has_pred e σ = true <-> exists b, tgt σ b e.
Proof.
  unfold has_pred, tgt, items_of. rewrite existsb_exists. split.
  - intros (x & Hx & H). apply In_nth_error in Hx as (b & Hb). exists b. rewrite Hb. apply existsb_exists in H as (i & Hi & H). apply existsb_exists in H as (t & Ht & E). apply Nat.eqb_eq in E. subst t.
    apply in_flat_map. eauto.
  - intros (b & H). destruct (nth_error (blks σ) b) as [x|] eqn:E; [|destruct H]. exists x. split; [eapply nth_error_In; eauto|]. apply in_flat_map in H as (i & Hi & H).
    apply existsb_exists. exists i. split; [assumption|]. apply existsb_exists. exists e. split; [assumption|apply Nat.eqb_refl].
Qed.
Lemma tgt_mono P Q σ σ' lv b t : frame P Q σ σ' lv -> tgt σ b t -> tgt σ' b t.
Proof. intros F H. destruct (frame_items _ _ _ _ _ b F) as (r & E). unfold tgt. rewrite E, flat_map_app. apply in_or_app. auto. Qed.
Lemma pred_frame P Q σ σ' lv e : frame P Q σ σ' lv -> e < len σ -> ~ In e P -> has_pred e σ' = has_pred e σ.
Proof.
  intros F He HP. apply eq_true_iff_eq. rewrite !has_pred_iff. split; intros (b & H).
  - destruct (f_tgt _ _ _ _ _ F _ _ H) as [H1|[H1|[H1 _]]]; [eauto|contradiction|lia].
  - exists b. eapply tgt_mono; eauto.
Qed.
Lemma pred_put e i σ : cur σ < len σ -> has_pred e (put i σ) = has_pred e σ || existsb (Nat.eqb e) (targets i).
Proof.
  intros Hc. apply eq_true_iff_eq. rewrite orb_true_iff, !has_pred_iff. unfold tgt. rewrite blks_put. split.
  - intros (b & H). destruct (Nat.eq_dec b (cur σ)) as [->|Hn].
    + rewrite items_emit_same, flat_map_app in H by assumption. apply in_app_or in H as [H|H]; [eauto|]. right. cbn in H. rewrite app_nil_r in H. apply existsb_exists. exists e. split; [assumption|apply Nat.eqb_refl].
    + rewrite items_emit_other in H by assumption. eauto.
  - intros [(b & H)|H].
    + exists b. destruct (Nat.eq_dec b (cur σ)) as [->|Hn]; [rewrite items_emit_same, flat_map_app by assumption; apply in_or_app; auto|now rewrite items_emit_other].
    + apply existsb_exists in H as (t & H & E). apply Nat.eqb_eq in E. subst t. exists (cur σ). rewrite items_emit_same, flat_map_app by assumption. apply in_or_app. right. cbn. now rewrite app_nil_r.
Qed.

(** ** Statements *)
Definition dests (σ : cg) : list nat := exit_b σ :: flat_map (fun p => [fst p; snd p]) (loops σ).
Record kept (σ σ' : cg) : Prop := { k_loops : loops σ' = loops σ; k_exit : exit_b σ' = exit_b σ; k_rty : ret_ty σ' = ret_ty σ; k_rslot : ret_slot σ' = ret_slot σ }.
Lemma kept_refl σ : kept σ σ. Proof. now constructor. Qed.
Lemma kept_trans σ σ1 σ2 : kept σ σ1 -> kept σ1 σ2 -> kept σ σ2.
Proof. intros [] []. constructor; congruence. Qed.
Lemma same_kept σ σ' : same σ σ' -> kept σ σ'.
Proof. intros []. now constructor. Qed.
Lemma kept_dests σ σ' : kept σ σ' -> dests σ' = dests σ.
Proof. intros []. unfold dests. congruence. Qed.
Lemma kept_put i σ : kept σ (put i σ).
Proof. apply same_kept, same_put. Qed.
Lemma kept_cur b σ : kept σ (set_cur b σ). Proof. now constructor. Qed.
Lemma kept_ins v b σ : kept σ (set_inserted v b σ).
Proof. unfold set_inserted. destruct (nth_error _ _); now constructor. Qed.

Notation bstmt := (build_stmt llvm19 op_fun fsig).
Notation blist := (build_list bstmt).
Definition stays (σ : cg) : Prop := ready σ /\ Forall (fun b => b < len σ) (dests σ) /\ (forall b t, tgt σ b t -> t < len σ).
Definition SH (s : stmt) : Prop := forall σ σ', shaped (denote_stmt s) = true -> bstmt s σ = Ret σ' -> stays σ ->
  frame (dests σ) [] σ σ' (leaves (denote_stmt s)) /\ kept σ σ'.
Definition SHL (l : list stmt) : Prop := forall σ σ', shaped_list (map denote_stmt l) = true -> blist l σ = Ret σ' -> stays σ ->
  frame (dests σ) [] σ σ' (last_leaves (map denote_stmt l)) /\ kept σ σ'.
Lemma insd_lt σ b : insd σ b = true -> b < len σ.
Proof. unfold inserted. destruct (nth_error (blks σ) b) eqn:E; [|discriminate]. intros _. eapply nth_error_lt; eauto. Qed.
Lemma frame_tgts P Q σ σ' lv : (forall b t, tgt σ b t -> t < len σ) -> Forall (fun b => b < len σ') P -> frame P Q σ σ' lv -> forall b t, tgt σ' b t -> t < len σ'.
Proof.
  intros HT HP F b t Ht. pose proof (f_len _ _ _ _ _ F). destruct (f_tgt _ _ _ _ _ F _ _ Ht) as [H1|[H1|[_ H1]]].
  - specialize (HT _ _ H1). lia.
  - rewrite Forall_forall in HP. auto.
  - now apply insd_lt.
Qed.
Lemma frame_stays Q σ σ' : stays σ -> frame (dests σ) Q σ σ' false -> kept σ σ' -> stays σ'.
Proof.
  intros (_ & HD & HT) F K. split; [eapply ready_frame; eauto|]. assert (Forall (fun b => b < len σ') (dests σ)) as HD'. { eapply Forall_impl; [|exact HD]. cbn beta. intros b H. pose proof (f_len _ _ _ _ _ F). lia. }
  rewrite (kept_dests _ _ K). split; [assumption|]. eapply frame_tgts; eauto.
Qed.
Lemma SH_list l : Forall SH l -> SHL l.
Proof.
  induction 1 as [|s l Hs Hl IH]; intros σ σ' Sh H St. { injection H as <-. split; [apply frame_refl, St|apply kept_refl]. }
  change (obind (bstmt s σ) (blist l) = Ret σ') in H. destruct (bstmt s σ) as [σ1| | |] eqn:E; try discriminate. cbn [obind] in H.
  destruct l as [|s2 l]. { injection H as <-. apply Hs; auto. }
  change (shaped (denote_stmt s) && negb (leaves (denote_stmt s)) && shaped_list (map denote_stmt (s2 :: l)) = true) in Sh.
  apply andb_true_iff in Sh as [Sh Sh2]. apply andb_true_iff in Sh as [Sh1 Sh3]. apply negb_true_iff in Sh3.
  destruct (Hs _ _ Sh1 E St) as [F1 K1]. rewrite Sh3 in F1. destruct (IH _ _ Sh2 H (frame_stays _ _ _ St F1 K1)) as [F2 K2].
  split; [|eapply kept_trans; eauto]. rewrite (kept_dests _ _ K1) in F2. change (last_leaves (map denote_stmt (s :: s2 :: l))) with (last_leaves (map denote_stmt (s2 :: l))).
  eapply frame_trans; [apply St|exact F1|exact F2].
Qed.

Lemma term_last P Q σ σ' lv : frame P Q σ σ' lv -> cur_term σ' = lv.
Proof. intros F. pose proof (f_last _ _ _ _ _ F) as H. unfold cur_term, block_term. destruct lv; [now apply closed_term|now apply opn_term]. Qed.
Lemma frame_end P Q σ σ' lv b : cur σ < len σ -> frame P Q σ σ' lv -> In b P \/ (len σ <= b /\ insd σ' b = true) -> frame P Q σ (if cur_term σ' then σ' else put (Br b) σ') true.
Proof.
  intros Hc F Hb. rewrite (term_last _ _ _ _ _ F). destruct lv; [exact F|]. eapply frame_term; eauto. intros x [<-|[]]. assumption.
Qed.
Lemma insd_end b c σ : insd (if cur_term σ then σ else put (Br b) σ) c = insd σ c.
Proof. destruct (cur_term σ); [reflexivity|]. rewrite blks_put. apply inserted_emit. Qed.
Lemma len_end b σ : len (if cur_term σ then σ else put (Br b) σ) = len σ.
Proof. destruct (cur_term σ); [reflexivity|]. rewrite blks_put. apply emit_at_length. Qed.
Lemma len_put i σ : len (put i σ) = len σ.
Proof. rewrite blks_put. apply emit_at_length. Qed.
Lemma insd_put i c σ : insd (put i σ) c = insd σ c.
Proof. rewrite blks_put. apply inserted_emit. Qed.
Lemma kept_end b σ : kept σ (if cur_term σ then σ else put (Br b) σ).
Proof. destruct (cur_term σ); [apply kept_refl|apply kept_put]. Qed.
Lemma len_insert v b σ : len (set_inserted v b σ) = len σ.
Proof. unfold set_inserted. destruct (nth_error _ _) eqn:E; [|reflexivity]. cbn. apply set_nth_length. eapply nth_error_lt; eauto. Qed.
Lemma cur_insert v b σ : cur (set_inserted v b σ) = cur σ.
Proof. unfold set_inserted. destruct (nth_error _ _); reflexivity. Qed.

Lemma iext_insd σ σ' b : iext σ σ' -> insd σ' b = insd σ b.
Proof. intros [_ (xs & E)]. rewrite E. apply inserted_emit. Qed.
Lemma iext_len σ σ' : iext σ σ' -> len σ' = len σ.
Proof. intros [_ (xs & E)]. rewrite E. apply emit_at_length. Qed.

Lemma SH_while c b : SHL b -> SH (S_while c b).
Proof.
  intros IH σ σ' Sh H St. change (shaped_list (map denote_stmt b) = true) in Sh. cbn [build_stmt] in H. destruct St as (R & HD & HTG). pose proof R as (Hc & Hi & Ho).
  set (P := dests σ) in *. set (n := len σ) in *.
  (* the blocks *)
  pose proof (frame_block _ _ true _ _ _ Hc (frame_refl P σ R)) as F1. cbn [app] in F1. fold n in F1. set (σ1 := snd (new_block true σ)) in *.
  assert (len σ1 = S n) as L1 by (cbn; rewrite app_length; cbn; fold n; lia).
  pose proof (frame_block _ _ false _ _ _ Hc F1) as F2. cbn [app] in F2. rewrite L1 in F2. set (σ2 := snd (new_block false σ1)) in *.
  assert (len σ2 = S (S n)) as L2 by (cbn [σ2 new_block snd blks set_blks]; rewrite app_length, L1; cbn; lia).
  pose proof (frame_block _ _ false _ _ _ Hc F2) as F3. cbn [app] in F3. rewrite L2 in F3. set (σ3 := snd (new_block false σ2)) in *.
  assert (len σ3 = S (S (S n))) as L3 by (cbn [σ3 new_block snd blks set_blks]; rewrite app_length, L2; cbn; lia).
  set (σ4 := set_loops ((n, S n) :: loops σ) σ3). assert (insd σ4 n = true) as I4.
  { assert (blks σ4 = blks σ ++ [Blk true []; Blk false []; Blk false []]) as -> by (cbn; rewrite <- !app_assoc; reflexivity). unfold inserted. rewrite nth_error_app2 by lia. fold n. now rewrite Nat.sub_diag. }
  pose proof (frame_set_loops _ _ ((n, S n) :: loops σ) _ _ _ F3) as F4. fold σ4 in F4.
  set (σ5 := if cur_term σ4 then σ4 else put (Br n) σ4).
  assert (frame P [n; S n; S (S n)] σ σ5 true) as F5 by (apply frame_end with (lv := false); auto).
  assert (insd σ5 n = true) as I5 by (unfold σ5; rewrite insd_end; exact I4).
  assert (new_loop σ = (n, S (S n), S n, set_cur n σ5)) as EN.
  { unfold new_loop. cbn [new_block]. fold n. change (length (blks (set_blks (blks σ ++ [Blk true []]) σ))) with (len σ1). rewrite L1.
    change (length (blks (set_blks (blks (set_blks (blks σ ++ [Blk true []]) σ) ++ [Blk false []]) (set_blks (blks σ ++ [Blk true []]) σ)))) with (len σ2). rewrite L2. reflexivity. }
  rewrite EN in H. cbn beta iota in H. clear EN.
  pose proof (frame_goto _ [] _ _ _ _ Hc F5 I5) as F6. cbn [app] in F6. set (σ6 := set_cur n σ5) in *.
  assert (exit_b σ6 = exit_b σ /\ loops σ6 = (n, S n) :: loops σ /\ ret_ty σ6 = ret_ty σ /\ ret_slot σ6 = ret_slot σ) as (X6 & Lo6 & T6 & R6).
  { assert (kept σ4 σ6) as K by (eapply kept_trans; [apply kept_end|apply kept_cur]). rewrite (k_exit _ _ K), (k_loops _ _ K), (k_rty _ _ K), (k_rslot _ _ K). repeat split. }
  (* condition *)
  destruct (build_cond _ _ _ c σ6) as [[id σ7]| | |] eqn:EC; try discriminate. cbn [obind] in H. pose proof (iext_cond _ _ _ _ EC) as X7.
  pose proof (frame_trans _ _ _ _ _ _ Hc F6 (frame_iext P _ _ (ready_frame _ _ _ _ F6) X7)) as F7.
  destruct (add_loop_cond (S (S n)) (S n) id σ7) as [σ10| | |] eqn:EA; try discriminate. cbn [obind] in H.
  unfold add_loop_cond in EA. destruct (load_value id σ7) as [[o σ8]| | |] eqn:EL; try discriminate. cbn [obind] in EA. injection EA as EA.
  pose proof (iext_load _ _ _ _ EL) as X8. pose proof (frame_trans _ _ _ _ _ _ Hc F7 (frame_iext P _ _ (ready_frame _ _ _ _ F7) X8)) as F8.
  set (P1 := S n :: n :: S (S n) :: P). assert (frame P1 [S n; S (S n)] σ (put (CondBr o (S (S n)) (S n)) σ8) true) as F9.
  { apply frame_term; [assumption|eapply frame_weaken; [|exact F8]; unfold P1; cbn; auto|reflexivity|]. intros x [<-|[<-|[]]]; left; unfold P1; cbn; auto. }
  set (σ9 := put (CondBr o (S (S n)) (S n)) σ8) in *.
  pose proof (frame_insert _ _ (S (S n)) _ _ _ Hc F9 (or_intror (or_introl eq_refl))) as F9'.
  assert (len σ9 = S (S (S n))) as L9. { unfold σ9. rewrite len_put, (iext_len _ _ X8), (iext_len _ _ X7). cbn [σ6 set_cur blks]. unfold σ5. rewrite len_end. exact L3. }
  assert (insd (set_inserted true (S (S n)) σ9) (S (S n)) = true) as I9 by (apply insd_insert; lia).
  pose proof (frame_goto _ [S n] _ [] _ _ Hc F9' I9) as F10. cbn [app] in F10. rewrite EA in F10.
  assert (kept σ6 σ10) as K10. { eapply kept_trans; [apply same_kept, X7|]. eapply kept_trans; [apply same_kept, X8|]. subst σ10. eapply kept_trans; [apply kept_put|]. eapply kept_trans; [apply kept_ins|apply kept_cur]. }
  assert (insd σ10 n = true /\ insd σ10 (S (S n)) = true /\ len σ10 = S (S (S n))) as (I10 & I10' & L10).
  { subst σ10. cbn [set_cur blks]. fold σ9. split; [|split; [assumption|rewrite len_insert; assumption]]. apply insd_insert_mono. unfold σ9. rewrite insd_put, (iext_insd _ _ _ X8), (iext_insd _ _ _ X7). exact I5. }
  assert (dests σ10 = exit_b σ :: n :: S n :: flat_map (fun p => [fst p; snd p]) (loops σ)) as D10. { unfold dests. rewrite (k_exit _ _ K10), (k_loops _ _ K10), X6, Lo6. reflexivity. }
  assert (stays σ10) as S10.
  { split; [eapply ready_frame; eauto|]. rewrite D10, L10. assert (Forall (fun z => z < S (S (S n))) (dests σ)) as HD2. { eapply Forall_impl; [|exact HD]. cbn beta. intros z Hz. lia. }
    split. { unfold dests in HD2. inversion HD2; subst. constructor; [assumption|]. constructor; [lia|]. constructor; [lia|assumption]. }
    rewrite <- L10. eapply frame_tgts; [exact HTG| |exact F10]. unfold P1. rewrite L10. repeat (constructor; [lia|]). exact HD2. }
  (* body *)
  destruct (blist b σ10) as [σ11| | |] eqn:EB; try discriminate. cbn [obind] in H. injection H as <-.
  destruct (IH _ _ Sh EB S10) as [FB KB]. rewrite D10 in FB.
  assert (frame P1 [S n] σ σ11 (last_leaves (map denote_stmt b))) as F11.
  { eapply frame_trans; [exact Hc|exact F10|]. eapply frame_weaken; [|exact FB]. unfold P1, P, dests. cbn [In]. intros z [Hz|[Hz|[Hz|Hz]]]; auto. }
  assert (forall z, z < len σ10 -> insd σ11 z = insd σ10 z) as I11 by (intros z Hz; eapply frame_ins; [apply S10|exact FB|exact Hz]).
  unfold finish_loop. set (σ12 := if cur_term σ11 then σ11 else put (Br n) σ11).
  assert (frame P1 [S n] σ σ12 true) as F12 by (apply frame_end with (lv := last_leaves (map denote_stmt b)); [assumption|exact F11|left; unfold P1; cbn; auto]).
  pose proof (frame_insert _ _ (S n) _ _ _ Hc F12 (or_introl eq_refl)) as F13.
  assert (len σ12 = len σ11) as L12 by apply len_end. pose proof (f_len _ _ _ _ _ FB) as LB.
  assert (insd (set_inserted true (S n) σ12) (S n) = true) as I13 by (apply insd_insert; lia).
  pose proof (frame_goto _ [] _ [] _ _ Hc F13 I13) as F14. cbn [app] in F14.
  apply (frame_set_loops _ _ (tl (loops (set_cur (S n) (set_inserted true (S n) σ12))))) in F14. set (σ15 := set_loops _ _) in F14.
  assert (insd σ15 n = true /\ insd σ15 (S (S n)) = true /\ insd σ15 (S n) = true) as (J1 & J2 & J3).
  { cbn [σ15 set_loops set_cur blks]. split; [|split; [|assumption]]; apply insd_insert_mono; unfold σ12; rewrite insd_end, I11 by lia; assumption. }
  split.
  - change (leaves (denote_stmt (S_while c b))) with false. unfold P1 in F14. apply frame_drop in F14; [|fold n; lia|assumption]. apply frame_drop in F14; [|fold n; lia|assumption]. apply frame_drop in F14; [|fold n; lia|assumption]. exact F14.
  - assert (kept σ6 (set_cur (S n) (set_inserted true (S n) σ12))) as K. { eapply kept_trans; [exact K10|]. eapply kept_trans; [exact KB|]. eapply kept_trans; [apply kept_end|]. eapply kept_trans; [apply kept_ins|apply kept_cur]. }
    constructor; cbn [σ15 set_loops loops exit_b ret_ty ret_slot].
    + rewrite (k_loops _ _ K), Lo6. reflexivity.
    + etransitivity; [apply (k_exit _ _ K)|assumption].
    + etransitivity; [apply (k_rty _ _ K)|assumption].
    + etransitivity; [apply (k_rslot _ _ K)|assumption].
Qed.

(** *** if *)
Lemma flat_cur s σ σ' : flat (denote_stmt s) = true -> bstmt s σ = Ret σ' -> cur σ' = cur σ.
Proof.
  destruct s as [[e|]|e| | | |]; intros Hf H; try discriminate Hf; cbn [build_stmt] in H.
  - destruct (build_expr _ _ _ e σ) as [[id σ1]| | |] eqn:E; try discriminate. cbn [obind return_ir] in H. pose proof (m_cur _ _ (proj1 (iext_expr _ _ _ _ E))) as C1.
    destruct (cast_to id (ret_ty σ1) σ1) as [[id' σ2]| | |] eqn:E2; try discriminate. cbn [obind] in H. pose proof (m_cur _ _ (proj1 (iext_cast _ _ _ _ _ E2))) as C2.
    destruct (ret_slot σ2). { destruct (load_value id' σ2) as [[o σ3]| | |] eqn:E3; try discriminate. cbn [obind] in H. pose proof (m_cur _ _ (proj1 (iext_load _ _ _ _ E3))) as C3. injection H as <-. rewrite !cur_put. congruence. }
    injection H as <-. rewrite cur_put. congruence.
  - injection H as <-. apply cur_put.
  - destruct (build_expr _ _ _ e σ) as [[id σ1]| | |] eqn:E; try discriminate. injection H as <-. apply (m_cur _ _ (proj1 (iext_expr _ _ _ _ E))).
  - unfold continue_ir in H. destruct (loops σ) as [|[? ?] ?]; [discriminate|]. injection H as <-. apply cur_put.
  - unfold break_ir in H. destruct (loops σ) as [|[? ?] ?]; [discriminate|]. injection H as <-. apply cur_put.
Qed.
Lemma flat_list_cur l : forall σ σ', forallb flat (map denote_stmt l) = true -> blist l σ = Ret σ' -> cur σ' = cur σ.
Proof.
  induction l as [|s l IH]; intros σ σ' Hf H. { now injection H as <-. }
  cbn [map forallb] in Hf. apply andb_true_iff in Hf as [H1 H2]. change (obind (bstmt s σ) (blist l) = Ret σ') in H. destruct (bstmt s σ) as [σ1| | |] eqn:E; try discriminate. cbn [obind] in H.
  rewrite (IH _ _ H2 H). eapply flat_cur; eauto.
Qed.
Definition flatp (es : list (nat * nat)) : list nat := flat_map (fun p => [fst p; snd p]) es.
Lemma new_elifs_frame P k : forall Q σ σ1 lv es σ2, cur σ < len σ -> frame P Q σ σ1 lv -> new_elifs k σ1 = (es, σ2) ->
  frame P (Q ++ flatp es) σ σ2 lv /\ length es = k /\ kept σ1 σ2 /\ cur σ2 = cur σ1 /\ len σ1 <= len σ2 /\
  (forall b, In b (flatp es) -> insd σ2 b = true) /\ (forall b, b < len σ1 -> nth_error (blks σ2) b = nth_error (blks σ1) b) /\ (forall b, items σ2 b = items σ1 b).
Proof.
  induction k as [|k IH]; intros Q σ σ1 lv es σ2 Hc F H; cbn [new_elifs] in H.
  { injection H as <- <-. cbn [flatp flat_map]. rewrite app_nil_r. split; [assumption|]. split; [reflexivity|]. split; [apply kept_refl|]. split; [reflexivity|]. split; [lia|]. split; [intros b []|]. split; auto. }
  pose proof (frame_block _ _ true _ _ _ Hc F) as F1. set (s1 := snd (new_block true σ1)) in *.
  pose proof (frame_block _ _ true _ _ _ Hc F1) as F2. set (s2 := snd (new_block true s1)) in *. rewrite <- app_assoc in F2. cbn [app] in F2.
  change (new_block true σ1) with (len σ1, s1) in H. cbn beta iota in H. change (new_block true s1) with (len s1, s2) in H. cbn beta iota in H.
  destruct (new_elifs k s2) as [l s3] eqn:E. injection H as <- <-. destruct (IH _ _ _ _ _ _ Hc F2 E) as (F3 & Hl & K & C & L & I3 & N & M).
  assert (len s2 = S (S (len σ1))) as Ls. { cbn. rewrite !app_length. cbn. lia. } assert (len s1 = S (len σ1)) as Ls1. { cbn. rewrite !app_length. cbn. lia. }
  assert (forall b, b < len s2 -> b >= len σ1 -> insd s3 b = true) as J.
  { intros b H1 H2. unfold inserted. rewrite N by assumption. assert (blks s2 = blks σ1 ++ [Blk true []; Blk true []]) as -> by (cbn; now rewrite <- app_assoc). rewrite nth_error_app2 by lia.
    destruct (b - len σ1) as [|[|]] eqn:Eb; try reflexivity. lia. }
  split. { rewrite <- app_assoc in F3. exact F3. } split; [cbn; congruence|]. split; [eapply kept_trans; [|exact K]; now constructor|]. split; [rewrite C; reflexivity|]. split; [lia|]. split; [|split].
  - cbn [flatp flat_map app In]. intros b [<-|[<-|Hb]]; [apply J|apply J|now apply I3]; cbn [fst snd]; rewrite ?app_length; cbn [length]; lia.
  - intros b Hb. rewrite N by lia. assert (blks s2 = blks σ1 ++ [Blk true []; Blk true []]) as -> by (cbn; now rewrite <- app_assoc). now apply nth_app_lt.
  - intros b. rewrite M. unfold s2, s1. now rewrite !items_block.
Qed.
Definition closing (e : nat) (σ : cg) : cg := if cur_term σ then σ else put (Br e) σ.
(** A branch, from its first block to the jump to the end *)
Lemma branch_frame ss P bb Q e σ0 σ1 σ2 : SHL ss -> shaped_list (map denote_stmt ss) = true -> stays σ0 -> P = dests σ0 ->
  frame P (bb :: Q) σ0 σ1 true -> kept σ0 σ1 -> (forall b, In b (bb :: Q) -> insd σ1 b = true) -> In e Q ->
  blist ss (set_cur bb σ1) = Ret σ2 ->
  stays (set_cur bb σ1) /\ frame P [] (set_cur bb σ1) σ2 (last_leaves (map denote_stmt ss)) /\
  frame P Q σ0 (closing e σ2) true /\ kept σ0 (closing e σ2) /\ (forall b, In b Q -> insd (closing e σ2) b = true) /\
  has_pred e (closing e σ2) = has_pred e σ1 || negb (last_leaves (map denote_stmt ss)) /\
  (last_leaves (map denote_stmt ss) || forallb flat (map denote_stmt ss) = true -> end_branch bb e σ2 = closing e σ2).
Proof.
  intros IH Sh St -> F K HI He H. pose proof St as ((Hc & _) & HD & HTG). pose proof (frame_goto _ [] _ _ _ _ Hc F (HI _ (or_introl eq_refl))) as F1. cbn [app] in F1.
  assert (kept σ0 (set_cur bb σ1)) as K1 by (eapply kept_trans; [exact K|apply kept_cur]). pose proof (frame_stays _ _ _ St F1 K1) as St1.
  destruct (IH _ _ Sh H St1) as [FB KB]. rewrite (kept_dests _ _ K1) in FB. set (lv := last_leaves (map denote_stmt ss)) in *. split; [assumption|]. split; [assumption|].
  pose proof (frame_trans _ _ _ _ _ _ Hc F1 FB) as F2. destruct (f_pend _ _ _ _ _ F e (or_intror He)) as (Le & _ & _).
  assert (forall b, In b Q -> insd σ2 b = true) as I2.
  { intros b Hb. rewrite (frame_ins _ _ _ _ _ b (proj1 (proj1 St1)) FB); [apply (HI b); cbn; auto|]. apply (f_pend _ _ _ _ _ F b). cbn. auto. }
  split. { unfold closing. eapply frame_end; [assumption|exact F2|]. right. split; [lia|auto]. }
  split. { eapply kept_trans; [exact K1|]. eapply kept_trans; [exact KB|]. apply kept_end. }
  split. { intros b Hb. unfold closing. rewrite insd_end. auto. }
  assert (has_pred e σ2 = has_pred e σ1) as HP.
  { rewrite (pred_frame _ _ _ _ _ e FB); [reflexivity|cbn; lia|]. intros Hin. rewrite Forall_forall in HD. specialize (HD _ Hin). lia. }
  pose proof (term_last _ _ _ _ _ F2) as ET. split.
  - unfold closing. rewrite ET. destruct lv; [now rewrite HP, orb_false_r|]. rewrite pred_put by fr F2. cbn [targets existsb negb]. rewrite Nat.eqb_refl. now rewrite HP.
  - intros Hf. unfold end_branch, closing. replace (block_term bb σ2) with (cur_term σ2); [reflexivity|]. rewrite ET. unfold block_term.
    destruct (f_move _ _ _ _ _ FB) as [E|[_ E]]; cbn [cur set_cur] in E.
    + rewrite <- E. unfold cur_term, block_term in ET. now rewrite ET.
    + destruct lv; [symmetry; now apply closed_term|]. cbn [orb] in Hf. pose proof (flat_list_cur _ _ _ Hf H) as Ecur. cbn [set_cur cur] in Ecur. unfold cur_term, block_term in ET. rewrite Ecur in ET. now rewrite ET.
Qed.
(** A condition, from the block that computes it to the jump *)
Lemma test_frame c id P Q σ0 σ1 σ2 σ3 bb nx e : stays σ0 -> P = dests σ0 -> frame P Q σ0 σ1 false -> kept σ0 σ1 ->
  (forall b, In b Q -> insd σ1 b = true) -> In bb Q -> In nx Q -> In e Q ->
  build_cond llvm19 op_fun fsig c σ1 = Ret (id, σ2) -> branch_ir id bb nx σ2 = Ret σ3 ->
  exists σ4, σ3 = set_cur bb σ4 /\ frame P Q σ0 σ4 true /\ kept σ0 σ4 /\ (forall b, In b Q -> insd σ4 b = true) /\
    has_pred e σ4 = has_pred e σ1 || (e =? bb) || (e =? nx).
Proof.
  intros St -> F K HI Hb Hn He H1 H2. pose proof St as ((Hc & _) & HD & HTG). unfold branch_ir in H2. destruct (load_value id σ2) as [[o σ4]| | |] eqn:EL; try discriminate. cbn [obind] in H2. injection H2 as <-.
  pose proof (iext_cond _ _ _ _ H1) as X1. pose proof (iext_trans _ _ _ X1 (iext_load _ _ _ _ EL)) as X. clear X1 H1 EL.
  pose proof (frame_iext (dests σ0) _ _ (ready_frame _ _ _ _ F) X) as FX. pose proof (frame_trans _ _ _ _ _ _ Hc F FX) as F1.
  assert (forall b, In b Q -> insd σ4 b = true) as I4 by (intros; rewrite (iext_insd _ _ _ X); auto).
  exists (put (CondBr o bb nx) σ4). split; [reflexivity|].
  split. { apply frame_term; auto. intros x [<-|[<-|[]]]; right; (split; [|now apply I4]); [apply (f_pend _ _ _ _ _ F bb Hb)|apply (f_pend _ _ _ _ _ F nx Hn)]. }
  split. { eapply kept_trans; [exact K|]. eapply kept_trans; [apply same_kept, X|apply kept_put]. }
  split. { intros b Hq. rewrite insd_put. auto. }
  rewrite pred_put by fr F1. cbn [targets existsb]. rewrite orb_false_r, orb_assoc. f_equal. f_equal. apply (pred_frame _ _ _ _ _ e FX); [apply (f_pend _ _ _ _ _ F e He)|].
  intros Hin. rewrite Forall_forall in HD. specialize (HD _ Hin). pose proof (f_pend _ _ _ _ _ F e He). lia.
Qed.
Definition tail_blocks (el : option nat) (e : nat) : list nat := (match el with Some b => [b] | None => [] end) ++ [e].
Lemma next_block_in es el e : In (next_block es el e) (flatp es ++ tail_blocks el e).
Proof. destruct es as [|[c b] es]; [destruct el|]; cbn; auto. Qed.
Lemma next_block_e es el e : NoDup (flatp es ++ tail_blocks el e) -> (e =? next_block es el e) = match es, el with [], None => true | _, _ => false end.
Proof.
  intros H. destruct es as [|[c b] es]; [destruct el as [b|]|]; cbn [next_block].
  - cbn in H. inversion H as [|? ? H1 _]; subst. apply Nat.eqb_neq. intros ->. apply H1. cbn. auto.
  - apply Nat.eqb_refl.
  - apply Nat.eqb_neq. intros ->. cbn in H. inversion H as [|? ? H1 _]; subst. apply H1. cbn. right. apply in_or_app. right. unfold tail_blocks. apply in_or_app. cbn. auto.
Qed.
Definition elif_shaped (x : operand * list stmt) : bool :=
  shaped_list (map denote_stmt (snd x)) && (last_leaves (map denote_stmt (snd x)) || forallb flat (map denote_stmt (snd x))).
Definition elif_leaves (x : operand * list stmt) : bool := last_leaves (map denote_stmt (snd x)).
Lemma elifs_frame l : Forall (fun x => SHL (snd x)) l -> forall el e es σ0 σ1 σ2 P, forallb elif_shaped l = true -> stays σ0 -> P = dests σ0 ->
  frame P (flatp es ++ tail_blocks el e) σ0 σ1 true -> kept σ0 σ1 -> (forall b, In b (flatp es ++ tail_blocks el e) -> insd σ1 b = true) -> length es = length l ->
  build_elifs llvm19 op_fun fsig blist el e l es σ1 = Ret σ2 ->
  frame P (tail_blocks el e) σ0 σ2 true /\ kept σ0 σ2 /\ (forall b, In b (tail_blocks el e) -> insd σ2 b = true) /\
  has_pred e σ2 = has_pred e σ1 || negb (forallb elif_leaves l) || match l, el with _ :: _, None => true | _, _ => false end.
Proof.
  induction 1 as [|[c ss] l Hss Hl IH]; intros el e es σ0 σ1 σ2 P Sh St HP F K HI Hlen H; destruct es as [|[cb bb] es]; try discriminate Hlen.
  { injection H as <-. cbn [flatp flat_map app] in *. split; [assumption|]. split; [assumption|]. split; [assumption|]. now rewrite !orb_false_r. }
  cbn [forallb] in Sh. apply andb_true_iff in Sh as [Sh1 Sh2]. unfold elif_shaped in Sh1. cbn [snd] in Sh1. apply andb_true_iff in Sh1 as [Sh1 Sh3].
  change (flatp ((cb, bb) :: es)) with (cb :: bb :: flatp es) in *. cbn [app] in F, HI. cbn [length] in Hlen. injection Hlen as Hlen.
  cbn [build_elifs] in H. pose proof (proj1 (proj1 St)) as Hc.
  pose proof (frame_goto _ [] _ _ _ _ Hc F (HI cb (or_introl eq_refl))) as F1. cbn [app] in F1. assert (kept σ0 (set_cur cb σ1)) as K1 by (eapply kept_trans; [exact K|apply kept_cur]).
  set (Q := flatp es ++ tail_blocks el e) in *. assert (In e Q) as HeQ by (unfold Q, tail_blocks; apply in_or_app; right; apply in_or_app; cbn; auto).
  destruct (build_cond llvm19 op_fun fsig c (set_cur cb σ1)) as [[id s1]| | |] eqn:E1; try discriminate. cbn [obind] in H.
  destruct (branch_ir id bb (next_block es el e) s1) as [s2| | |] eqn:E2; try discriminate. cbn [obind] in H.
  destruct (test_frame c id P (bb :: Q) σ0 (set_cur cb σ1) s1 s2 bb (next_block es el e) e) as (s3 & -> & F3 & K3 & I3 & HP3); auto.
  { intros b Hb. apply HI. cbn. cbn in Hb. tauto. } { cbn; auto. } { right. apply next_block_in. } { cbn; auto. }
  destruct (blist ss (set_cur bb s3)) as [s4| | |] eqn:E4; try discriminate. cbn [obind] in H.
  destruct (branch_frame ss P bb Q e σ0 s3 s4) as (_ & _ & F4 & K4 & I4 & HP4 & Eb); auto. rewrite (Eb Sh3) in H.
  destruct (IH el e es σ0 (closing e s4) σ2 P) as (F5 & K5 & I5 & HP5); auto. split; [assumption|]. split; [assumption|]. split; [assumption|].
  rewrite HP5, HP4, HP3. change (has_pred e (set_cur cb σ1)) with (has_pred e σ1).
  assert ((e =? bb) = false) as -> by (apply Nat.eqb_neq; intros ->; pose proof (f_nodup _ _ _ _ _ F1) as ND; inversion ND; subst; contradiction).
  rewrite next_block_e by (pose proof (f_nodup _ _ _ _ _ F1) as ND; now inversion ND). cbn [forallb]. unfold elif_leaves at 2. cbn [snd].
  destruct l as [|y l], es as [|p es]; try discriminate Hlen; destruct el; cbn [forallb]; destruct (has_pred e σ1), (last_leaves (map denote_stmt ss)); cbn [orb negb andb]; try reflexivity; try (rewrite ?orb_true_r, ?orb_false_r; reflexivity).
Qed.
Lemma SH_if c b es el : SHL b -> Forall (fun x => SHL (snd x)) es -> oall SHL el -> SH (S_ifelse c b es el).
Proof.
  intros IHb IHes IHel σ σ' Sh H St. pose proof St as (R & HD & HTG). pose proof R as (Hc & Hi & Ho).
  assert (shaped_list (map denote_stmt b) = true /\ forallb elif_shaped es = true /\ match el with Some ss => shaped_list (map denote_stmt ss) && (last_leaves (map denote_stmt ss) || forallb flat (map denote_stmt ss)) | None => true end = true) as (Sb & Ses & Sel).
  { cbn [denote_stmt shaped] in Sh. apply andb_true_iff in Sh as [Sh S3]. apply andb_true_iff in Sh as [S1 S2]. split; [exact S1|]. split.
    - clear - S2. induction es as [|[c' b'] es IH]; [reflexivity|]. cbn [map forallb] in S2. apply andb_true_iff in S2 as [A B]. cbn [forallb]. apply andb_true_iff. split; [exact A|]. apply IH. exact B.
    - destruct el; [exact S3|reflexivity]. }
  assert (leaves (denote_stmt (S_ifelse c b es el)) = match el with Some ss => last_leaves (map denote_stmt b) && forallb elif_leaves es && last_leaves (map denote_stmt ss) | None => false end) as Elv.
  { cbn [denote_stmt leaves]. destruct el as [ss|]; [|reflexivity]. f_equal. f_equal. clear. induction es as [|[c' b'] es IH]; [reflexivity|]. cbn [map forallb]. f_equal. exact IH. }
  rewrite Elv. clear Elv.
  cbn [build_stmt] in H. destruct (build_cond _ _ _ c σ) as [[id σ1]| | |] eqn:EC; try discriminate. cbn [obind] in H. set (P := dests σ) in *.
  pose proof (iext_cond _ _ _ _ EC) as X1. pose proof (frame_iext P _ _ R X1) as F1. assert (kept σ σ1) as K1 by apply same_kept, X1.
  destruct (new_condition (length es) (match el with Some _ => true | None => false end) σ1) as [[[[ib eb] lb] e] σ2] eqn:EN. unfold new_condition in EN.
  pose proof (frame_block _ _ true _ _ _ Hc F1) as G1. cbn [app] in G1. set (s1 := snd (new_block true σ1)) in *. change (new_block true σ1) with (len σ1, s1) in EN. cbn beta iota in EN.
  destruct (new_elifs (length es) s1) as [eb' s2] eqn:EE. destruct (new_elifs_frame _ _ _ _ _ _ _ _ Hc G1 EE) as (G2 & Hle & K2 & C2 & L2 & I2 & N2 & M2).
  assert (insd s1 (len σ1) = true) as Is1. { unfold inserted. cbn. rewrite nth_error_app2, Nat.sub_diag by lia. reflexivity. }
  assert (len s1 = S (len σ1)) as Ls1. { cbn. rewrite app_length. cbn. lia. }
  assert (exists s3, (if match el with Some _ => true | None => false end then (Some (len s2), snd (new_block true s2)) else (None, s2)) = (lb, s3) /\
     eb' = eb /\ ib = len σ1 /\ e = len s3 /\ σ2 = snd (new_block true s3)) as (s3 & E3 & -> & -> & -> & ->).
  { destruct el; [change (new_block true s2) with (len s2, snd (new_block true s2)) in EN; set (s3 := snd (new_block true s2)) in *|set (s3 := s2) in *]; exists s3; (split; [|change (new_block true s3) with (len s3, snd (new_block true s3)) in EN]);
      injection EN as <- <- <- <- <-; auto. }
  clear EN. set (tb := match lb with Some b0 => [b0] | None => [] end).
  assert (frame P ([len σ1] ++ flatp eb ++ tb) σ s3 false /\ kept s2 s3 /\ (forall x, In x tb -> insd s3 x = true) /\ (forall x, x < len s2 -> nth_error (blks s3) x = nth_error (blks s2) x) /\ len s2 <= len s3 /\
     (forall x, items s3 x = items s2 x) /\ match el, lb with Some _, Some _ => True | None, None => True | _, _ => False end) as (G3 & K3 & I3 & N3 & L3 & M3 & Hm).
  { destruct el as [ss|].
    - injection E3 as <- <-. pose proof (frame_block _ _ true _ _ _ Hc G2) as G3. rewrite <- app_assoc in G3. split; [exact G3|].
      split; [now constructor|]. split. { intros x [<-|[]]. unfold inserted. cbn. rewrite nth_error_app2, Nat.sub_diag by lia. reflexivity. } split; [intros; cbn; now apply nth_app_lt|]. split; [cbn; rewrite app_length; lia|]. split; [intros; apply items_block|exact I].
    - injection E3 as <- <-. unfold tb. rewrite app_nil_r. split; [exact G2|]. split; [apply kept_refl|]. split; [intros x []|]. split; [auto|]. split; [lia|]. split; [auto|exact I]. }
  pose proof (frame_block _ _ true _ _ _ Hc G3) as G4. set (e := len s3) in *. set (s4 := snd (new_block true s3)) in *.
  assert (forall x, x < e -> nth_error (blks s4) x = nth_error (blks s3) x) as N4 by (intros; cbn; now apply nth_app_lt).
  assert (insd s4 e = true) as Ie. { unfold inserted. cbn. rewrite nth_error_app2, Nat.sub_diag by (fold e; lia). reflexivity. }
  rewrite <- !app_assoc in G4. cbn [app] in G4. change (tb ++ [e]) with (tail_blocks lb e) in G4. set (Q := flatp eb ++ tail_blocks lb e) in *.
  assert (forall x, In x (len σ1 :: Q) -> insd s4 x = true) as I4.
  { intros x [<-|Hx].
    - unfold inserted. rewrite N4, N3, N2 by lia. exact Is1.
    - apply in_app_or in Hx as [Hx|Hx].
      + destruct (f_pend _ _ _ _ _ G2 x) as (B & _). { cbn. auto. } unfold inserted. rewrite N4, N3 by lia. now apply I2.
      + apply in_app_or in Hx as [Hx|[<-|[]]]; [|assumption]. destruct (f_pend _ _ _ _ _ G3 x) as (B & _). { apply in_or_app. right. apply in_or_app. auto. } unfold inserted. rewrite N4 by (unfold e; lia). now apply I3. }
  assert (kept σ s4) as K4. { eapply kept_trans; [exact K1|]. eapply kept_trans; [|eapply kept_trans; [exact K2|eapply kept_trans; [exact K3|]]]; now constructor. }
  assert (In e Q) as HeQ by (unfold Q, tail_blocks; apply in_or_app; right; apply in_or_app; cbn; auto).
  assert (has_pred e s4 = false) as HP4.
  { apply not_true_is_false. intros HP. apply has_pred_iff in HP as (x & HP). unfold tgt, s4 in HP. rewrite items_block, M3, M2 in HP. unfold s1 in HP. rewrite items_block in HP.
    assert (Forall (fun z => z < len σ1) P) as HP1. { eapply Forall_impl; [|exact HD]. cbn beta. intros z Hz. pose proof (f_len _ _ _ _ _ F1). lia. }
    pose proof (frame_tgts _ _ _ _ _ HTG HP1 F1 x e HP). lia. }
  (* the first condition *)
  destruct (branch_ir id (len σ1) (next_block eb lb e) s4) as [s5| | |] eqn:EB; try discriminate. cbn [obind] in H.
  assert (exists s6, s5 = set_cur (len σ1) s6 /\ frame P (len σ1 :: Q) σ s6 true /\ kept σ s6 /\ (forall x, In x (len σ1 :: Q) -> insd s6 x = true) /\
    has_pred e s6 = match eb, lb with [], None => true | _, _ => false end) as (s6 & -> & F6 & K6 & I6 & HP6).
  { unfold branch_ir in EB. destruct (load_value id s4) as [[o s7]| | |] eqn:EL; try discriminate. cbn [obind] in EB. injection EB as <-. pose proof (iext_load _ _ _ _ EL) as X.
    pose proof (frame_iext P _ _ (ready_frame _ _ _ _ G4) X) as FX. pose proof (frame_trans _ _ _ _ _ _ Hc G4 FX) as F7. assert (forall x, In x (len σ1 :: Q) -> insd s7 x = true) as I7 by (intros; rewrite (iext_insd _ _ _ X); auto).
    assert (In (next_block eb lb e) (len σ1 :: Q)) as HnQ by (right; apply next_block_in).
    eexists. split; [reflexivity|]. split. { apply frame_term; auto. intros x [<-|[<-|[]]]; right; (split; [|apply I7; cbn; auto]); [apply (f_pend _ _ _ _ _ G4); cbn; auto|apply (f_pend _ _ _ _ _ G4); assumption]. }
    split. { eapply kept_trans; [exact K4|]. eapply kept_trans; [apply same_kept, X|apply kept_put]. } split. { intros x Hx. rewrite insd_put. auto. }
    rewrite pred_put by fr F7. cbn [targets existsb]. rewrite orb_false_r.
    rewrite (pred_frame _ _ _ _ _ e FX), HP4.
    - pose proof (f_nodup _ _ _ _ _ G4) as ND. inversion ND as [|? ? ND1 ND2]; subst. rewrite next_block_e by assumption. replace (e =? len σ1) with false; [reflexivity|]. symmetry. apply Nat.eqb_neq. intros E. apply ND1. now rewrite <- E.
    - apply (f_pend _ _ _ _ _ G4). cbn; auto.
    - intros Hin. rewrite Forall_forall in HD. specialize (HD _ Hin). destruct (f_pend _ _ _ _ _ G4 e); [cbn; auto|]. lia. }
  clear EB.
  (* the first branch *)
  destruct (blist b (set_cur (len σ1) s6)) as [s7| | |] eqn:E7; try discriminate. cbn [obind] in H.
  destruct (branch_frame b P (len σ1) Q e σ s6 s7) as (_ & _ & F7 & K7 & I7 & HP7 & _); auto.
  change (end_if e s7) with (closing e s7) in H.
  (* elif *)
  destruct (build_elifs _ _ _ _ lb e es eb (closing e s7)) as [s8| | |] eqn:E8; try discriminate. cbn [obind] in H.
  destruct (elifs_frame es IHes lb e eb σ (closing e s7) s8 P) as (F8 & K8 & I8 & HP8); auto.
  (* else *)
  assert (exists s9, Ret (finish_condition e s9) = Ret σ' /\ frame P [e] σ s9 true /\ kept σ s9 /\ insd s9 e = true /\
    has_pred e s9 = negb (match el with Some ss => last_leaves (map denote_stmt b) && forallb elif_leaves es && last_leaves (map denote_stmt ss) | None => false end)) as (s9 & E9 & F9 & K9 & I9 & HP9).
  { destruct el as [ss|], lb as [l|]; try contradiction.
    - apply andb_true_iff in Sel as [Sel1 Sel2]. destruct (blist ss (set_cur l s8)) as [s9| | |] eqn:E9; try discriminate. cbn [obind] in H.
      destruct (branch_frame ss P l [e] e σ s8 s9) as (_ & _ & F9 & K9 & I9 & HP9 & Eb); auto. { cbn; auto. } rewrite (Eb Sel2) in H.
      exists (closing e s9). split; [exact H|]. split; [assumption|]. split; [assumption|]. split; [apply I9; cbn; auto|]. rewrite HP9, HP8, HP7, HP6.
      destruct eb, es; try discriminate Hle; cbn [orb]; rewrite !negb_andb, ?orb_false_r; reflexivity.
    - cbn [obind] in H. exists s8. split; [exact H|]. split; [assumption|]. split; [assumption|]. split; [apply I8; cbn; auto|]. rewrite HP8, HP7, HP6. destruct eb, es; try discriminate Hle; cbn [orb negb]; rewrite ?orb_true_r; reflexivity. }
  injection E9 as <-. clear H. unfold finish_condition. rewrite HP9, negb_involutive.
  destruct (match el with Some ss => last_leaves (map denote_stmt b) && forallb elif_leaves es && last_leaves (map denote_stmt ss) | None => false end).
  - split; [|eapply kept_trans; [exact K9|apply kept_ins]]. apply (frame_remove P [] e [] σ s9 true Hc F9). intros x Hx. apply (Bool.eq_true_false_abs (has_pred e s9)); [|assumption]. apply has_pred_iff. eauto.
  - split; [|eapply kept_trans; [exact K9|apply kept_cur]]. apply (frame_goto P [] e [] σ s9 Hc F9 I9).
Qed.
Lemma SH_flat s : flat (denote_stmt s) = true -> SH s.
Proof.
  destruct s as [[e|]|e| | | |]; intros Hf σ σ' Sh H (R & HD & HTG); try discriminate Hf; cbn [build_stmt] in H; pose proof (proj1 R) as Hc.
  - destruct (build_expr _ _ _ e σ) as [[id σ1]| | |] eqn:E; try discriminate. cbn [obind return_ir] in H. pose proof (iext_expr _ _ _ _ E) as X1.
    destruct (cast_to id (ret_ty σ1) σ1) as [[id' σ2]| | |] eqn:E2; try discriminate. cbn [obind] in H. pose proof (iext_trans _ _ _ X1 (iext_cast _ _ _ _ _ E2)) as X2.
    assert (exists σ3, iext σ σ3 /\ σ' = put (Br (exit_b σ3)) σ3) as (σ3 & X3 & ->).
    { destruct (ret_slot σ2).
      - destruct (load_value id' σ2) as [[o σ3]| | |] eqn:E3; try discriminate. cbn [obind] in H. injection H as <-. exists (put (Ins (IStore o n)) σ3).
        split; [|now rewrite (m_exit _ _ (same_put _ σ3))]. eapply iext_trans; [exact X2|]. eapply iext_trans; [eapply iext_load; eauto|apply iext_put].
      - injection H as <-. eauto. }
    split; [|eapply kept_trans; [apply same_kept, X3|apply kept_put]]. apply frame_term; [assumption|now apply frame_iext|reflexivity|]. intros x [<-|[]]. left. unfold dests. rewrite (m_exit _ _ (proj1 X3)). cbn; auto.
  - injection H as <-. split; [|apply kept_put]. apply frame_term; [assumption|now apply frame_refl|reflexivity|]. intros x [<-|[]]. left. cbn; auto.
  - destruct (build_expr _ _ _ e σ) as [[id σ1]| | |] eqn:E; try discriminate. injection H as <-. pose proof (iext_expr _ _ _ _ E) as X. split; [now apply frame_iext|apply same_kept, X].
  - unfold continue_ir in H. destruct (loops σ) as [|[c e] ?] eqn:El; [discriminate|]. injection H as <-. split; [|apply kept_put]. apply frame_term; [assumption|now apply frame_refl|reflexivity|]. intros x [<-|[]]. left. unfold dests. rewrite El. cbn; auto.
  - unfold break_ir in H. destruct (loops σ) as [|[c e] ?] eqn:El; [discriminate|]. injection H as <-. split; [|apply kept_put]. apply frame_term; [assumption|now apply frame_refl|reflexivity|]. intros x [<-|[]]. left. unfold dests. rewrite El. cbn; auto.
Qed.
Lemma shape s : SH s.
Proof.
  induction s as [e|e|c b IH|c b es el IHb IHes IHel|p|p] using stmt_ind2; try (apply SH_flat; reflexivity).
  - now apply SH_while, SH_list.
  - apply SH_if; [now apply SH_list| |].
    + eapply Forall_impl; [|exact IHes]. intros x. apply SH_list.
    + destruct el; [now apply SH_list|exact I].
Qed.
Lemma shapes l : SHL l.
Proof. apply SH_list. induction l; constructor; auto using shape. Qed.

(** ** Functions *)
Lemma iext_define_args l : forall i σ, iext σ (define_args i l σ).
Proof.
  induction l as [|[t x] l IH]; intros i σ; [apply iext_refl|]. cbn [define_args new_slot new_value]. eapply iext_trans; [|apply IH].
  set (σ1 := put (Ins (IStore (OArg i) (nslot σ))) (put (Ins (IAlloca (nslot σ))) (set_nslot (S (nslot σ)) σ))). eapply iext_trans with (σ1 := σ1); [|apply iext_blks; [reflexivity|now constructor]].
  eapply iext_trans; [|apply iext_put]. eapply iext_trans; [|apply iext_put]. apply iext_blks; [reflexivity|now constructor].
Qed.
Lemma define_blks ret args : exists xs, blks (define_function ret args) = [Blk true (map Ins xs); Blk false []] /\ cur (define_function ret args) = 0 /\ loops (define_function ret args) = [] /\ exit_b (define_function ret args) = 1.
Proof.
  unfold define_function. set (σ0 := Cg _ _ _ _ _ _ _ _ _ _). set (σ1 := match ret with TVoid => σ0 | _ => _ end).
  assert (exists ys, blks σ1 = [Blk true (map Ins ys); Blk false []] /\ cur σ1 = 0 /\ loops σ1 = [] /\ exit_b σ1 = 1) as (ys & A & B & C & D).
  { destruct ret; [exists []|exists [IAlloca 0]|exists [IAlloca 0]]; auto. }
  destruct (iext_define_args args 0 σ1) as [S (xs & E)]. exists (ys ++ xs). rewrite E, (m_cur _ _ S), (m_loops _ _ S), (m_exit _ _ S), A, B. unfold emit_at. cbn. rewrite map_app. auto.
Qed.
Lemma define_stays ret args : stays (define_function ret args).
Proof.
  destruct (define_blks ret args) as (xs & A & B & C & D). unfold stays, ready, dests. rewrite A, B, C, D. cbn. split; [|split].
  - split; [lia|]. split; [reflexivity|apply opn_ins].
  - repeat constructor.
  - intros b t Ht. unfold tgt in Ht. rewrite A in Ht. unfold items_of in Ht. destruct b as [|[|b]]; cbn in Ht; [|destruct Ht|destruct b; destruct Ht]. rewrite (opn_targets _ (opn_ins xs)) in Ht. destruct Ht.
Qed.
Lemma closed_blocks P σ σ' : stays σ -> frame P [] σ σ' true -> forall b, (b = cur σ \/ len σ <= b) -> insd σ' b = true -> closed (items σ' b) = true.
Proof.
  intros St F b Hb Hi. destruct (Nat.eq_dec b (cur σ')) as [->|Hn]; [apply (f_last _ _ _ _ _ F)|]. destruct Hb as [->|Hb].
  - destruct (f_move _ _ _ _ _ F) as [E|[_ E]]; [congruence|assumption].
  - destruct (f_new _ _ _ _ _ F b) as [[]|H]; auto. split; [assumption|now apply insd_lt].
Qed.
Lemma compile_wf ret args body F : shaped_list (map denote_stmt body) = true -> compile llvm19 op_fun fsig ret args body = Ret F -> well_formed F = true.
Proof.
  intros Sh H. unfold compile, build_stmts in H. set (σ := define_function ret args) in *. destruct (blist body σ) as [σ1| | |] eqn:E; try discriminate. cbn [obind] in H. injection H as <-.
  pose proof (define_stays ret args : stays σ) as St. destruct (define_blks ret args) as (xs & A & B & C & D). fold σ in A, B, C, D. destruct (shapes body _ _ Sh E St) as [F1 K1].
  assert (dests σ = [1]) as ED by (unfold dests; now rewrite C, D). rewrite ED in F1. pose proof (proj1 (proj1 St)) as Hc. assert (len σ = 2) as L by now rewrite A.
  set (σ2 := if cur_term σ1 then σ1 else put (Br (exit_b σ1)) σ1). assert (frame [1] [] σ σ2 true) as F2. { unfold σ2. eapply frame_end; eauto. left. rewrite (k_exit _ _ K1), D. cbn; auto. }
  assert (exit_b σ2 = 1) as X2. { unfold σ2. rewrite (k_exit _ _ (kept_end _ _)), (k_exit _ _ K1). exact D. }
  assert (nth_error (blks σ2) 1 = Some (Blk false [])) as N1. { rewrite (f_old _ _ _ _ _ F2); [now rewrite A|lia|rewrite B; discriminate]. }
  set (σ3 := set_cur 1 (set_inserted true 1 σ2)).
  assert (exists zs, blks (finish_function σ1) = set_nth 1 (Blk true zs) (blks σ2) /\ closed zs = true /\ flat_map targets zs = []) as (zs & EF & Cz & Tz).
  { assert (blks σ3 = set_nth 1 (Blk true []) (blks σ2)) as E3 by (cbn; unfold set_inserted; now rewrite N1).
    assert (length (blks σ2) > 1) as L2 by (pose proof (f_len _ _ _ _ _ F2); lia).
    assert (forall l, emit_at 1 l (blks σ3) = set_nth 1 (Blk true l) (blks σ2)) as Em.
    { intros l. rewrite E3. apply nth_ext_eq. intros k. destruct (Nat.eq_dec k 1) as [->|Hk].
      - rewrite (emit_at_same _ _ _ (Blk true [])) by (now apply set_nth_same). rewrite set_nth_same by lia. reflexivity.
      - rewrite emit_at_other by assumption. now rewrite !set_nth_other by (auto; lia). }
    unfold finish_function. fold σ2. rewrite X2. fold σ3. destruct (ret_slot σ3) as [s|].
    - cbn [new_reg]. exists [Ins (ILoad (nreg σ3) s); RetVal (OReg (nreg σ3))]. split; [|split; reflexivity]. rewrite !blks_put, cur_put. cbn [set_nreg blks cur]. change (cur σ3) with 1. rewrite emit_at_app. apply Em.
    - exists [RetVoid]. split; [|split; reflexivity]. rewrite blks_put. change (cur σ3) with 1. apply Em. }
  rewrite EF. assert (1 < len σ2) as L2 by (pose proof (f_len _ _ _ _ _ F2); lia).
  assert (forall b, inserted (set_nth 1 (Blk true zs) (blks σ2)) b = (b =? 1) || insd σ2 b) as Hins.
  { intros b. unfold inserted. destruct (Nat.eqb_spec b 1) as [->|Hn]; [now rewrite set_nth_same|now rewrite set_nth_other]. }
  unfold well_formed. apply andb_true_iff. split.
  - rewrite Hins. cbn [Nat.eqb orb]. rewrite (frame_ins _ _ _ _ _ 0 Hc F2) by lia. unfold inserted. now rewrite A.
  - apply forallb_forall. intros x Hx. apply In_nth_error in Hx as (b & Hb). destruct (Nat.eq_dec b 1) as [->|Hn].
    + rewrite set_nth_same in Hb by assumption. injection Hb as <-. cbn [b_in b_items negb orb]. now rewrite Cz, Tz.
    + rewrite set_nth_other in Hb by assumption. destruct (b_in x) eqn:Ei; [|reflexivity]. cbn [negb orb]. assert (insd σ2 b = true) as Ib by (unfold inserted; now rewrite Hb).
      assert (items σ2 b = b_items x) as It by (unfold items_of; now rewrite Hb). apply andb_true_iff. split.
      * rewrite <- It. apply (closed_blocks _ _ _ St F2); [|assumption]. rewrite B, L. destruct b as [|[|]]; [auto|congruence|right; lia].
      * apply forallb_forall. intros t Ht. rewrite Hins. rewrite <- It in Ht. destruct (f_tgt _ _ _ _ _ F2 b t Ht) as [H1|[H1|[_ H1]]].
        -- exfalso. unfold tgt in H1. rewrite A in H1. unfold items_of in H1. destruct b as [|[|b]]; cbn in H1; [|destruct H1|destruct b; destruct H1]. rewrite (opn_targets _ (opn_ins xs)) in H1. destruct H1.
        -- destruct H1 as [<-|[]]. reflexivity.
        -- rewrite H1. apply orb_true_r.
Qed.
End Blocks.
