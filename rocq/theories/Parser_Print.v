(** Printed expressions are derivations of the grammar. *)
From Coq Require Import Ascii String List Bool Arith ZArith Lia.
Import ListNotations.
From Verif Require Import Base Lexer_Model Lexer_Spec Lexer_Proofs Op_Model Op_Lemmas Number_Model Parser_Model Parser_Spec Parser_Lemmas Parser_Sound Parser_Complete.

Definition kt (t : token) : tkind * text := (tk t, tx t).

Section Ind.
Variables (P : expr -> Prop) (Q : mem -> Prop).
Hypothesis Hbool : forall b, P (EBool b).
Hypothesis Hnum : forall v ty, P (ENum v ty).
Hypothesis Hstr : forall t, P (EStr t).
Hypothesis Hvar : forall x, P (EVar x).
Hypothesis Hcall : forall x es, Forall P es -> P (ECall x es).
Hypothesis Hmember : forall x ms, Forall Q ms -> P (EMember x ms).
Hypothesis Hdef : forall x, P (EDef x).
Hypothesis Harray : forall es, Forall P es -> P (EArray es).
Hypothesis Hun : forall op e, P e -> P (EUn op e).
Hypothesis Hbin : forall op a b, P a -> P b -> P (EBin op a b).
Hypothesis Hcond : forall c a b, P c -> P a -> P b -> P (ECond c a b).
Hypothesis Hfield : forall x, Q (MField x None).
Hypothesis Hfcall : forall x es, Forall P es -> Q (MField x (Some es)).
Hypothesis Hkey : forall t, Q (MKey t).
Hypothesis Hidx : forall n, Q (MIndex n).
Hypothesis Hmvar : forall x, Q (MVar x).
Fixpoint expr_ind2 (e : expr) : P e :=
  match e with
  | EBool b => Hbool b
  | ENum v ty => Hnum v ty
  | EStr t => Hstr t
  | EVar x => Hvar x
  | ECall x es => Hcall x es ((fix go l : Forall P l := match l with [] => Forall_nil P | a :: l' => Forall_cons a (expr_ind2 a) (go l') end) es)
  | EMember x ms => Hmember x ms ((fix go l : Forall Q l := match l with [] => Forall_nil Q | a :: l' => Forall_cons a (mem_ind2 a) (go l') end) ms)
  | EDef x => Hdef x
  | EArray es => Harray es ((fix go l : Forall P l := match l with [] => Forall_nil P | a :: l' => Forall_cons a (expr_ind2 a) (go l') end) es)
  | EUn op a => Hun op a (expr_ind2 a)
  | EBin op a b => Hbin op a b (expr_ind2 a) (expr_ind2 b)
  | ECond c a b => Hcond c a b (expr_ind2 c) (expr_ind2 a) (expr_ind2 b)
  end
with mem_ind2 (m : mem) : Q m :=
  match m with
  | MField x None => Hfield x
  | MField x (Some es) => Hfcall x es ((fix go l : Forall P l := match l with [] => Forall_nil P | a :: l' => Forall_cons a (expr_ind2 a) (go l') end) es)
  | MKey t => Hkey t
  | MIndex n => Hidx n
  | MVar x => Hmvar x
  end.
Lemma expr_mem_ind : (forall e, P e) /\ (forall m, Q m).
Proof. split. exact expr_ind2. exact mem_ind2. Qed.
End Ind.

Section P.
Variable num_text : dbl -> option numty -> text.
Variable idx_text : Z -> text.
Variable is_dtype : text -> bool.
Notation G := (G is_dtype).
Notation Rest := (Rest is_dtype).
Notation show := (show num_text idx_text).
Notation show_mem := (show_mem num_text idx_text).
Notation writable := (writable num_text idx_text is_dtype).
Notation writable_mem := (writable_mem num_text idx_text is_dtype).

(** *** Climbing down the levels *)
Lemma climb1 n c e : 3 <= n <= 8 -> G (S n) c e -> G n c e.
Proof.
  intros Hn H. assert (n = 3 \/ n = 4 \/ n = 5 \/ n = 6 \/ n = 7 \/ n = 8) as C by lia.
  destruct C as [ -> | [ -> | [ -> | [ -> | [ -> | -> ]]]]];
    try (replace c with (c ++ []) by (now rewrite app_nil_r); eapply g_left; [lia|exact H|constructor]).
  now apply g_pow1. now apply g_un1.
Qed.
Lemma climb m : forall n c e, 3 <= n <= m -> m <= 9 -> G m c e -> G n c e.
Proof.
  induction m as [|m IH]; intros n c e Hn Hm H; [lia|]. destruct (Nat.eq_dec n (S m)) as [->|]; auto.
  apply IH; try lia. apply climb1; [lia|exact H].
Qed.
Lemma climb_expr m c e : 3 <= m <= 9 -> G m c e -> G 1 c e.
Proof. intros Hm H. apply g_expr. eapply climb; [|  |exact H]; lia. Qed.

Lemma Rest_snoc n e c e' o r op e2 : Rest n e c e' -> binop n op o -> G (S n) r e2 -> Rest n e (c ++ o :: r) (EBin op e' e2).
Proof.
  intros H Ho Hr. induction H.
  - cbn [app]. replace (o :: r) with (o :: r ++ []) by now rewrite app_nil_r. eapply r_cons; eauto. constructor.
  - cbn [app]. rewrite <- app_assoc. eapply r_cons; eauto.
Qed.
Lemma G_snoc n c e o r op e2 : 3 <= n <= 6 -> G n c e -> binop n op o -> G (S n) r e2 -> G n (c ++ o :: r) (EBin op e e2).
Proof.
  intros Hn H Ho Hr. inversion H; subst; try lia. rewrite <- app_assoc. eapply g_left; [lia|eassumption|]. eapply Rest_snoc; eauto.
Qed.

(** *** Operators *)
Definition lv (e : expr) : nat := match e with ECond _ _ _ => 1 | _ => level e end.
Lemma table_symbols : Forall (fun x => In (snd (fst x)) (map fst symbol_table) /\ In (snd x) [1; 3; 4; 5; 6; 7]) operator_table.
Proof. repeat (constructor; [split; solve [in_table]|]). constructor. Qed.
Lemma bin_entry op : In op (map (fun x => fst (fst x)) operator_table) ->
  exists s l, find (fun x => optok_eqb (fst (fst x)) op) operator_table = Some (op, s, l) /\ In (op, s, l) operator_table /\
    In s (map fst symbol_table) /\ In l [1; 3; 4; 5; 6; 7].
Proof.
  intros H. destruct (find (fun x => optok_eqb (fst (fst x)) op) operator_table) as [[[o s] l]|] eqn:E.
  - pose proof E as E'. apply find_some in E' as [Hin Ho]. cbn [fst snd] in Ho. apply optok_eqb_eq in Ho. subst o.
    exists s, l. split; auto. split; auto. pose proof table_symbols as T. rewrite Forall_forall in T. apply (T _ Hin).
  - exfalso. apply in_map_iff in H as (x & <- & Hx). pose proof (find_none _ _ E x Hx) as N. cbn beta in N. rewrite (proj2 (optok_eqb_eq _ _) eq_refl) in N. discriminate.
Qed.
Lemma sym_kt s t : In s (map fst symbol_table) -> kt t = op_lexeme s -> is_sym s t.
Proof.
  intros H Ht. simpl in H. repeat (destruct H as [<-|H]; [injection Ht as Ht _; unfold is_sym; rewrite Ht; solve [in_table]|]). contradiction.
Qed.
Lemma level_bin op : In op (map (fun x => fst (fst x)) operator_table) -> forall a b,
  let l := level (EBin op a b) in (l = 1 \/ l = 3 \/ l = 4 \/ l = 5 \/ l = 6 \/ l = 7) /\ forall t, kt t = bin_lexeme op -> binop l op t.
Proof.
  intros H a b. destruct (bin_entry op H) as (s & l & E & Hin & Hs & Hl). cbn [level]. unfold bin_lexeme. rewrite E. cbn [fst snd]. split.
  - cbn [In] in Hl. intuition.
  - intros t Ht. exists s. split; auto. now apply sym_kt.
Qed.
Lemma un_ok op : In op (map fst unary_table) -> forall t, kt t = un_lexeme op -> unop op t.
Proof. intros H t Ht. simpl in H. repeat (destruct H as [<-|H]; [injection Ht as Ht _; apply unop_ops; rewrite Ht; reflexivity|]). contradiction. Qed.
Lemma writable_level e : writable e -> 1 <= level e <= 9.
Proof. intros H. destruct H; try (cbn; lia). pose proof (level_bin op H a b) as [C _]. cbv zeta in C. lia. Qed.

Lemma lv_range e : writable e -> lv e = 1 \/ 3 <= lv e <= 9.
Proof. intros H. destruct H; try (cbn; lia). pose proof (level_bin op H a b) as [C _]. cbv zeta in C. cbn [lv]. lia. Qed.
Lemma lv_not_cond e : writable e -> (match e with ECond _ _ _ => true | _ => false end) = false -> 2 <= level e -> 3 <= lv e <= 9.
Proof. intros H He L. destruct H; try discriminate He; try (cbn; lia). pose proof (level_bin op H a b) as [C _]. cbv zeta in C. cbn [lv]. lia. Qed.

Lemma auto_kt t : kt t = op_lexeme "auto" -> is_kw "auto" t.
Proof. intros Ht. injection Ht as Ht _. unfold is_kw. rewrite Ht. solve [in_table]. Qed.

Lemma kt_app c l1 l2 : map kt c = l1 ++ l2 -> exists c1 c2, c = c1 ++ c2 /\ map kt c1 = l1 /\ map kt c2 = l2.
Proof. intros H. apply map_eq_app in H as (c1 & c2 & H). eauto. Qed.
Lemma kt_cons c x l : map kt c = x :: l -> exists t c', c = t :: c' /\ kt t = x /\ map kt c' = l.
Proof. intros H. apply map_eq_cons in H as (t & c' & H). eauto. Qed.
Lemma kt_nil c : map kt c = [] -> c = [].
Proof. apply map_eq_nil. Qed.
Ltac cut_kt := repeat match goal with
  | H : map kt _ = _ ++ _ |- _ => apply kt_app in H as (? & ? & ? & ? & H)
  | H : map kt _ = _ :: _ |- _ => apply kt_cons in H as (? & ? & ? & ? & H)
  | H : map kt _ = [] |- _ => apply kt_nil in H
  end; subst.

(** Parentheses, and the level that is reached. *)
Definition body (e : expr) := show 0 e.
Lemma show_body n e : show n e = if level e <? n then op_lexeme "(" :: body e ++ [op_lexeme ")"] else body e.
Proof. unfold body. destruct e; reflexivity. Qed.

Definition derives_body (e : expr) : Prop := forall c, map kt c = body e -> G (lv e) c e.
Lemma derives_show e : writable e -> derives_body e -> forall n c, map kt c = show n e ->
  (level e < n -> G 9 c e) /\ (n <= level e -> G (lv e) c e).
Proof.
  intros Hw Hb n c Hc. rewrite show_body in Hc. destruct (level e <? n) eqn:E.
  - apply Nat.ltb_lt in E. split; [intros _|lia]. cut_kt. apply g_paren; try (apply sym_kt; [solve [in_table]|assumption]).
    pose proof (writable_level e Hw). specialize (Hb x1). 
    destruct (lv_range e Hw) as [L|L].
    rewrite L in Hb. auto. eapply climb_expr; eauto.
  - apply Nat.ltb_ge in E. split; [lia|auto].
Qed.
(** At level n >= 3, and for expressions. *)
Lemma derives_at e : writable e -> derives_body e -> forall n c, 3 <= n <= 9 -> map kt c = show n e -> G n c e.
Proof.
  intros Hw Hb n c Hn Hc. destruct (derives_show e Hw Hb n c Hc) as [H1 H2]. destruct (Nat.lt_ge_cases (level e) n) as [L|L].
  - eapply climb; [| |apply H1; auto]; lia.
  - pose proof (writable_level e Hw). assert (lv e = level e) as E by (destruct e; cbn [lv]; auto; cbn in L; lia).
    eapply climb; [| |apply H2; auto]; lia.
Qed.
Lemma derives_expr e : writable e -> derives_body e -> forall n c, n <= 9 -> map kt c = show n e -> G 1 c e.
Proof.
  intros Hw Hb n c Hn Hc. destruct (derives_show e Hw Hb n c Hc) as [H1 H2]. destruct (Nat.lt_ge_cases (level e) n) as [L|L].
  - eapply climb_expr; [|apply H1; auto]; lia.
  - destruct (lv_range e Hw) as [L1|L1].
    rewrite L1 in H2. auto. eapply climb_expr; eauto.
Qed.
(** The target of an assignment. *)
Lemma derives_target e : writable e -> derives_body e -> (match e with ECond _ _ _ => true | _ => false end) = false ->
  forall c, map kt c = show 2 e -> G 3 c e.
Proof.
  intros Hw Hb He c Hc. destruct (derives_show e Hw Hb 2 c Hc) as [H1 H2]. destruct (Nat.lt_ge_cases (level e) 2) as [L|L].
  - eapply climb; [| |apply H1; auto]; lia.
  - pose proof (lv_not_cond e Hw He L).
    eapply climb; [| |apply H2; auto]; lia.
Qed.

Lemma list_ok es : es <> [] -> Forall writable es -> Forall derives_body es -> forall c, map kt c = commas (map (show 1) es) -> List1 is_dtype c es.
Proof.
  destruct es as [|e es]; [congruence|]. intros _. revert e. induction es as [|e2 es IH]; intros e Hw Hb c Hc; inversion Hw; subst; inversion Hb; subst; cbn [map commas concat] in Hc.
  - rewrite app_nil_r in Hc. apply l_one. eapply derives_expr with (n := 1); eauto; lia.
  - cut_kt. apply l_cons.
    + eapply derives_expr with (n := 1); eauto; lia.
    + apply sym_kt; [solve [in_table]|assumption].
    + apply IH; auto. cbn [map commas]. rewrite !map_app. congruence.
Qed.
Lemma args_show es : Forall writable es -> Forall derives_body es -> forall c, map kt c = op_lexeme "(" :: commas (map (show 1) es) ++ [op_lexeme ")"] -> Args is_dtype c es.
Proof.
  intros Hw Hb c Hc. cut_kt. destruct es as [|e es].
  - match goal with H : map kt _ = commas _ |- _ => apply kt_nil in H; subst end. cbn [app]. apply a_nil; apply sym_kt; solve [in_table|assumption].
  - apply a_some; try (apply sym_kt; solve [in_table|assumption]). apply list_ok; auto. discriminate.
Qed.

Definition PE (e : expr) : Prop := writable e -> no_cond_target e = true -> derives_body e.
Definition PMem (m : mem) : Prop := writable_mem m -> no_cond_target_mem m = true -> forall c, map kt c = show_mem m -> Member is_dtype c m.

Lemma forall_body es : Forall PE es -> Forall writable es -> forallb no_cond_target es = true -> Forall derives_body es.
Proof. intros H Hw Hn. rewrite forallb_forall in Hn. rewrite Forall_forall in *. intros e He. apply H; auto. Qed.

Lemma print_derives : (forall e, PE e) /\ (forall m, PMem m).
Proof.
  apply expr_mem_ind; unfold PE, PMem, derives_body.
  - intros b Hw Hn c Hc. unfold body in Hc. cbn [Parser_Spec.show level Nat.ltb Nat.leb] in Hc. cut_kt. destruct b; [apply g_true|apply g_false]; unfold kt in *; congruence.
  - intros v ty Hw Hn c Hc. unfold body in Hc. cbn [Parser_Spec.show level Nat.ltb Nat.leb] in Hc. cut_kt. inversion Hw; subst. unfold kt in *. apply g_num; congruence.
  - intros t Hw Hn c Hc. unfold body in Hc. cbn [Parser_Spec.show level Nat.ltb Nat.leb] in Hc. cut_kt. unfold kt, quoted in *. apply g_str; congruence.
  - intros x Hw Hn c Hc. unfold body in Hc. cbn [Parser_Spec.show level Nat.ltb Nat.leb] in Hc. cut_kt. inversion Hw; subst. unfold kt in *.
    match goal with H : (tk ?t, tx ?t) = _ |- _ => injection H as Hk <- end. now apply g_var.
  - intros x es IH Hw Hn c Hc. unfold body in Hc. cbn [Parser_Spec.show level Nat.ltb Nat.leb] in Hc. inversion Hw; subst. cbn [no_cond_target] in Hn.
    apply kt_cons in Hc as (t & c' & -> & Ht & Hc). unfold kt in Ht. injection Ht as Hk <-. apply g_call; auto. apply args_show; auto. now apply forall_body.
  - intros x ms IH Hw Hn c Hc. unfold body in Hc. cbn [Parser_Spec.show level Nat.ltb Nat.leb] in Hc. inversion Hw as [| | | | |? ? Hx Hd Hne Hms| | | | |]; subst. cbn [no_cond_target] in Hn.
    apply kt_cons in Hc as (t & c' & -> & Ht & Hc). unfold kt in Ht. injection Ht as Hk <-. apply g_member; auto.
    clear Hw Hd Hk. revert c' Hc. induction ms as [|m ms IHms]; [congruence|]. intros c' Hc. inversion IH; subst. inversion Hms; subst. cbn [forallb] in Hn. apply andb_true_iff in Hn as [Hn1 Hn2].
    cbn [map concat] in Hc. destruct ms as [|m2 ms].
    + rewrite app_nil_r in Hc. apply m_one. auto.
    + apply kt_app in Hc as (c1 & c2 & -> & Hc1 & Hc2). apply m_cons; auto. apply IHms; auto. discriminate.
  - intros x Hw Hn c Hc. unfold body in Hc. cbn [Parser_Spec.show level Nat.ltb Nat.leb] in Hc. inversion Hw; subst. cut_kt. unfold kt in *.
    match goal with H : _ = (T_IDENTIFIER, _) |- _ => injection H as Hk <- end. apply g_def; auto. now apply auto_kt.
  - intros es IH Hw Hn c Hc. unfold body in Hc. cbn [Parser_Spec.show level Nat.ltb Nat.leb] in Hc. inversion Hw; subst. cbn [no_cond_target] in Hn. cut_kt. destruct es as [|e es].
    + match goal with H : map kt _ = commas _ |- _ => apply kt_nil in H; subst end. cbn [app]. apply g_array0; apply sym_kt; solve [in_table|assumption].
    + apply g_array; try (apply sym_kt; solve [in_table|assumption]). apply list_ok; auto. discriminate. now apply forall_body.
  - intros op e IH Hw Hn c Hc. unfold body in Hc. cbn [Parser_Spec.show level Nat.ltb Nat.leb] in Hc. inversion Hw; subst. cbn [no_cond_target] in Hn. cut_kt.
    cbn [lv level]. apply g_un. now apply un_ok. apply derives_at; auto; [|lia]. unfold derives_body. auto.
  - intros op a b IHa IHb Hw Hn c Hc. inversion Hw as [| | | | | | | | |? ? ? Hop Ha Hb|]; subst. destruct (level_bin op Hop a b) as [Hl Hbin]. cbv zeta in *.
    cbn [no_cond_target] in Hn. apply andb_true_iff in Hn as [Hn Hn3]. apply andb_true_iff in Hn as [Hn1 Hn2].
    assert (derives_body a) as Da by (unfold derives_body; auto). assert (derives_body b) as Db by (unfold derives_body; auto).
    unfold body in Hc. change (show 0 (EBin op a b)) with (let l := level (EBin op a b) in
        let w := if (l =? 1) || (l =? 7) then show (S l) a ++ bin_lexeme op :: show l b else show l a ++ bin_lexeme op :: show (S l) b in
        if l <? 0 then op_lexeme "(" :: w ++ [op_lexeme ")"] else w) in Hc. cbv zeta in Hc. cbn [lv].
    set (l := level (EBin op a b)) in *. replace (l <? 0) with false in Hc by (symmetry; apply Nat.ltb_ge; lia).
    destruct ((l =? 1) || (l =? 7)) eqn:E; cut_kt.
    + apply orb_true_iff in E as [E|E]; apply Nat.eqb_eq in E; rewrite E in *.
      * apply g_assign; auto. apply derives_target; auto. { cbn in Hn3. now apply negb_true_iff in Hn3. } eapply derives_expr with (n := 1); eauto; lia.
      * apply g_pow; auto; apply derives_at; auto; lia.
    + apply orb_false_iff in E as [E1 E2]. apply Nat.eqb_neq in E1, E2. apply G_snoc; auto; try lia; apply derives_at; auto; lia.
  - intros cc a b IHc IHa IHb Hw Hn c Hc. inversion Hw; subst. cbn [no_cond_target] in Hn. apply andb_true_iff in Hn as [Hn Hn3]. apply andb_true_iff in Hn as [Hn1 Hn2].
    unfold body in Hc. cbn [Parser_Spec.show level Nat.ltb Nat.leb] in Hc. cut_kt. cbn [lv].
    apply g_cond; try (apply sym_kt; solve [in_table|assumption]).
    + apply derives_at; auto; [unfold derives_body; auto|lia].
    + apply (derives_expr a) with (n := 1); auto; [unfold derives_body; auto|lia].
    + apply (derives_expr b) with (n := 2); auto; [unfold derives_body; auto|lia].
  - intros x Hw Hn c Hc. cbn [Parser_Spec.show_mem] in Hc. cut_kt. unfold kt in *.
    match goal with H : _ = (T_IDENTIFIER, _) |- _ => injection H as Hk <- end. apply m_field; auto. apply sym_kt; solve [in_table|assumption].
  - intros x es IH Hw Hn c Hc. cbn [Parser_Spec.show_mem] in Hc. inversion Hw; subst. cbn [no_cond_target_mem] in Hn.
    apply kt_cons in Hc as (d & c1 & -> & Hd & Hc). apply kt_cons in Hc as (t & c' & -> & Ht & Hc). unfold kt in Ht. injection Ht as Hk <-.
    apply m_call; auto. apply sym_kt; solve [in_table|assumption]. apply args_show; auto. now apply forall_body.
  - intros t Hw Hn c Hc. cbn [Parser_Spec.show_mem] in Hc. cut_kt. apply m_key; try (apply sym_kt; solve [in_table|assumption]); unfold kt, quoted in *; congruence.
  - intros n Hw Hn c Hc. cbn [Parser_Spec.show_mem] in Hc. inversion Hw as [| | |? Hnum Hidx|]; subst. cut_kt. rewrite <- Hidx.
    match goal with H : kt ?t = (T_NUMBER, _) |- _ => unfold kt in H; injection H as Hk <- end. apply m_index; auto; apply sym_kt; solve [in_table|assumption].
  - intros x Hw Hn c Hc. cbn [Parser_Spec.show_mem] in Hc. cut_kt.
    match goal with H : kt ?t = (T_IDENTIFIER, _) |- _ => unfold kt in H; injection H as Hk <- end. apply m_ref; auto; apply sym_kt; solve [in_table|assumption].
Qed.

(** *** Printed lexemes are lexemes *)
Definition lexeme_pair (x : tkind * text) : Prop := lexeme (fst x) (snd x).
Lemma sym_lexeme s : In s (map fst symbol_table) -> lexeme_pair (op_lexeme s).
Proof. intros H. simpl in H. repeat (destruct H as [<-|H]; [match goal with |- lexeme_pair (op_lexeme ?s) => apply (lex_symbol s) end; solve [in_table]|]). contradiction. Qed.
Lemma bin_is_lexeme op : In op (map (fun x => fst (fst x)) operator_table) -> lexeme_pair (bin_lexeme op).
Proof. intros H. destruct (bin_entry op H) as (s & l & E & _ & Hs & _). unfold bin_lexeme. rewrite E. cbn [fst snd]. now apply sym_lexeme. Qed.
Lemma un_is_lexeme op : In op (map fst unary_table) -> lexeme_pair (un_lexeme op).
Proof. intros H. simpl in H. repeat (destruct H as [<-|H]; [apply lex_symbol; solve [in_table]|]). contradiction. Qed.
Lemma commas_lexemes ls : Forall (Forall lexeme_pair) ls -> Forall lexeme_pair (commas ls).
Proof.
  destruct 1 as [|l ls Hl Hls]; cbn [commas]; [constructor|]. apply Forall_app. split; auto.
  induction Hls; cbn [map concat]; [constructor|]. apply Forall_app. split; auto. constructor; auto. apply sym_lexeme. solve [in_table].
Qed.
Ltac syms := first [apply sym_lexeme; solve [in_table] | assumption].
Lemma args_lexemes es o c : lexeme_pair o -> lexeme_pair c -> Forall (fun e => forall n, Forall lexeme_pair (show n e)) es ->
  Forall lexeme_pair (o :: commas (map (show 1) es) ++ [c]).
Proof.
  intros Ho Hc H. constructor; auto. apply Forall_app. split; [|constructor; auto]. apply commas_lexemes. induction H; cbn [map]; constructor; auto.
Qed.
Lemma print_lexemes : (forall e, writable e -> forall n, Forall lexeme_pair (show n e)) /\ (forall m, writable_mem m -> Forall lexeme_pair (show_mem m)).
Proof.
  assert (forall es, Forall (fun e => writable e -> forall n, Forall lexeme_pair (show n e)) es -> Forall writable es -> Forall (fun e => forall n, Forall lexeme_pair (show n e)) es) as X.
  { intros es H Hw. rewrite Forall_forall in *. auto. }
  assert (forall e, Forall lexeme_pair (show 0 e) -> forall n, Forall lexeme_pair (show n e)) as Y.
  { intros e H n. rewrite show_body. unfold body. destruct (level e <? n); auto. constructor. syms. apply Forall_app. split; auto. constructor; auto. syms. }
  apply expr_mem_ind.
  - intros b Hw. apply Y. cbn. constructor; auto. destruct b; apply lex_keyword; solve [in_table].
  - intros v ty Hw. apply Y. cbn. inversion Hw; subst. constructor; auto. now apply lex_number.
  - intros t Hw. apply Y. cbn. inversion Hw; subst. constructor; auto. now apply lex_string.
  - intros x Hw. apply Y. cbn. inversion Hw; subst. constructor; auto.
  - intros x es IH Hw. apply Y. inversion Hw; subst. cbn [Parser_Spec.show level Nat.ltb Nat.leb]. constructor; auto. apply args_lexemes; try syms. auto.
  - intros x ms IH Hw. apply Y. inversion Hw as [| | | | |? ? Hx Hd Hne Hms| | | | |]; subst. cbn [Parser_Spec.show level Nat.ltb Nat.leb]. constructor; auto.
    clear Hne Hw. induction ms as [|m ms IHm]; cbn [map concat]; [constructor|]. inversion IH; subst. inversion Hms; subst. apply Forall_app. split; auto.
  - intros x Hw. apply Y. cbn. inversion Hw; subst. constructor; auto. apply (lex_keyword "auto" T_AUTO). solve [in_table].
  - intros es IH Hw. apply Y. inversion Hw; subst. cbn [Parser_Spec.show level Nat.ltb Nat.leb]. apply args_lexemes; try syms. auto.
  - intros op e IH Hw. apply Y. inversion Hw; subst. cbn [Parser_Spec.show level Nat.ltb Nat.leb]. constructor; auto. now apply un_is_lexeme.
  - intros op a b IHa IHb Hw. apply Y. inversion Hw as [| | | | | | | | |? ? ? Hop Ha Hb|]; subst.
    change (show 0 (EBin op a b)) with (let l := level (EBin op a b) in
        let w := if (l =? 1) || (l =? 7) then show (S l) a ++ bin_lexeme op :: show l b else show l a ++ bin_lexeme op :: show (S l) b in
        if l <? 0 then op_lexeme "(" :: w ++ [op_lexeme ")"] else w). cbv zeta.
    pose proof (bin_is_lexeme op Hop). destruct (_ || _); apply Forall_app; split; auto; constructor; auto.
  - intros c a b IHc IHa IHb Hw. apply Y. inversion Hw; subst. cbn [Parser_Spec.show level Nat.ltb Nat.leb]. apply Forall_app. split; auto. constructor. syms. apply Forall_app. split; auto. constructor; auto. syms.
  - intros x Hw. cbn [Parser_Spec.show_mem]. inversion Hw; subst. constructor. syms. constructor; auto.
  - intros x es IH Hw. inversion Hw; subst. cbn [Parser_Spec.show_mem]. constructor. syms. constructor; auto. apply args_lexemes; try syms. auto.
  - intros t Hw. inversion Hw; subst. cbn [Parser_Spec.show_mem]. constructor. syms. constructor. now apply lex_string. constructor; auto. syms.
  - intros n Hw. inversion Hw; subst. cbn [Parser_Spec.show_mem]. constructor. syms. constructor. now apply lex_number. constructor; auto. syms.
  - intros x Hw. inversion Hw; subst. cbn [Parser_Spec.show_mem]. constructor. syms. constructor; auto. constructor; auto. syms.
Qed.

(** *** The round trip *)
Lemma spaced_written ls : spaced ls -> Forall lexeme_pair (map fst ls) -> well_written ls.
Proof.
  intros H Hl. unfold well_written, spaced in *. rewrite Forall_forall in *. intros [[k t] g] Hin. destruct (H _ Hin) as [Hg Hs]. split; [|split; auto].
  apply (Hl (k, t)). apply in_map_iff. exists (k, t, g). auto.
Qed.
Lemma written_kt ls : forall p, exists body e, written_tokens p ls = body ++ [e] /\ tk e = T_EOF /\ map kt body = map fst ls.
Proof.
  induction ls as [|[[k t] g] ls IH]; intros p. exists [], (Token T_EOF [] p). auto.
  destruct (IH (p + length t + length g)) as (b & e & E & He & Hb). exists (Token k t p :: b), e. cbn [written_tokens]. rewrite E. cbn [app map]. rewrite Hb. auto.
Qed.
Lemma kt_tok_ok c ls : map kt c = ls -> Forall lexeme_pair ls -> Forall tok_ok c.
Proof. intros <- H. rewrite Forall_map in H. exact H. Qed.

Lemma print_parse e ls : writable e -> no_cond_target e = true -> map fst ls = show 1 e -> spaced ls ->
  exists a, parse_expression_ast is_dtype (written_text ls) = Ret a /\ denote a = e.
Proof.
  intros Hw Hn Hls Hsp. pose proof (proj1 print_lexemes e Hw 1) as Hlx.
  assert (well_written ls) as Hww. { apply spaced_written; auto. now rewrite Hls. }
  unfold parse_expression_ast. rewrite (lex_written ls Hww). cbn [obind].
  destruct (written_kt ls 0) as (b & t & -> & Ht & Hb). rewrite Hls in Hb.
  pose proof (proj1 print_derives e Hw Hn) as Hd.
  assert (G 1 b e) as Hg. { eapply derives_expr with (n := 1); eauto; lia. }
  destruct (parse_expr_complete is_dtype b e [t] Hg) as (a & Ea & Ha).
  - eapply kt_tok_ok; eauto.
  - exists [], t. auto.
  - unfold follow. cbn [cur hd]. rewrite Ht. cbn. lia.
  - rewrite Ha. exists a. auto.
Qed.

(** An assignment whose target is a conditional: printed as the table says, the conditional takes it over. *)
Lemma cond_target op c a b r ls : In op [OP_ASSIGN; OP_PLUS_ASSIGN; OP_MINUS_ASSIGN; OP_MULTIPLY_ASSIGN; OP_DIVIDE_ASSIGN; OP_MOD_ASSIGN] ->
  writable c -> writable a -> writable b -> writable r -> no_cond_target c = true -> no_cond_target a = true -> no_cond_target b = true -> no_cond_target r = true ->
  3 <= level b -> map fst ls = show 1 (EBin op (ECond c a b) r) -> spaced ls ->
  exists x, parse_expression_ast is_dtype (written_text ls) = Ret x /\ denote x = ECond c a (EBin op b r).
Proof.
  intros Hop Hc Ha Hb Hr Nc Na Nb Nr Lb Hls Hsp.
  assert (In op (map (fun x => fst (fst x)) operator_table)) as Hop'. { simpl in Hop. simpl. tauto. }
  assert (level (EBin op (ECond c a b) r) = 1 /\ level (EBin op b r) = 1) as [L1 L2].
  { simpl in Hop. repeat (destruct Hop as [<-|Hop]; [split; reflexivity|]). contradiction. }
  assert (writable (EBin op (ECond c a b) r)) as Hw by (apply w_bin; auto; now apply w_cond).
  pose proof (proj1 print_lexemes _ Hw 1) as Hlx.
  assert (well_written ls) as Hww. { apply spaced_written; auto. now rewrite Hls. }
  unfold parse_expression_ast. rewrite (lex_written ls Hww). cbn [obind].
  destruct (written_kt ls 0) as (bd & t & -> & Ht & Hbd). rewrite Hls in Hbd.
  assert (Forall tok_ok bd) as Hok by (eapply kt_tok_ok; eauto).
  assert (show 1 (EBin op (ECond c a b) r) = (show 3 c ++ op_lexeme "?" :: show 1 a ++ op_lexeme ":" :: show 2 b) ++ bin_lexeme op :: show 1 r) as E.
  { rewrite show_body. rewrite L1. cbn [Nat.ltb Nat.leb]. unfold body. change (show 0 (EBin op (ECond c a b) r)) with (let l := level (EBin op (ECond c a b) r) in
        let w := if (l =? 1) || (l =? 7) then show (S l) (ECond c a b) ++ bin_lexeme op :: show l r else show l (ECond c a b) ++ bin_lexeme op :: show (S l) r in
        if l <? 0 then op_lexeme "(" :: w ++ [op_lexeme ")"] else w). cbv zeta. rewrite L1. cbn [Nat.eqb orb Nat.ltb Nat.leb]. reflexivity. }
  rewrite E in Hbd. rewrite <- app_assoc in Hbd. cbn [app] in Hbd. rewrite <- app_assoc in Hbd. cbn [app] in Hbd.
  assert (G 1 bd (ECond c a (EBin op b r))) as Hg.
  { cut_kt. apply g_cond; try (apply sym_kt; solve [in_table|assumption]).
    - apply derives_at; auto; [|lia]. now apply (proj1 print_derives).
    - eapply (derives_expr a) with (n := 1); auto; [now apply (proj1 print_derives)|lia].
    - apply g_assign.
      + apply derives_target; auto. now apply (proj1 print_derives). destruct b; auto. cbn in Lb. lia.
      + destruct (level_bin op Hop' b r) as [_ X]. cbv zeta in X. rewrite L2 in X. auto.
      + eapply (derives_expr r) with (n := 1); auto; [now apply (proj1 print_derives)|lia]. }
  destruct (parse_expr_complete is_dtype bd _ [t] Hg Hok) as (x & Ex & Hx).
  - exists [], t. auto.
  - unfold follow. cbn [cur hd]. rewrite Ht. cbn. lia.
  - rewrite Hx. exists x. auto.
Qed.
End P.
