(** Statements, functions and programs: what the parser accepts is derivable provided every break and
    continue is followed by a semicolon. *)
From Coq Require Import Ascii String List Bool Arith ZArith Lia.
Import ListNotations.
From Verif Require Import Base Lexer_Model Lexer_Spec Lexer_Proofs Op_Model Number_Model Parser_Model Parser_Spec Parser_Lemmas Parser_Sound.

Definition tres {A X} (P : list token -> X -> Prop) (d : A -> X) (ts : toks) (r : outcome (A * toks)) : Prop :=
  match r with
  | Ret (a, rest) => stream rest /\ exists c, c <> [] /\ ts = c ++ rest /\ (terminated ts -> P c (d a))
  | Err => True
  | _ => False
  end.

Lemma sres_tres {A X} (P : list token -> X -> Prop) (d : A -> X) ts r : sres P d ts r -> tres P d ts r.
Proof. destruct r as [[a rest]| | |]; simpl; auto. intros (H1 & c & H2 & H3 & H4). split; auto. exists c. auto. Qed.

Lemma terminated_suffix c rest : terminated (c ++ rest) -> terminated rest.
Proof. intros H p t s E. apply (H (c ++ p)). rewrite E. now rewrite app_assoc. Qed.
Lemma terminated_cons t ts : terminated (t :: ts) -> terminated ts.
Proof. apply (terminated_suffix [t]). Qed.

Lemma stream_advance ts : stream ts -> stream (advance ts) /\ exists c, ts = c ++ advance ts.
Proof.
  intros Hs. destruct (tkind_eq_dec (tk (cur ts)) T_EOF) as [E|E].
  - assert (advance ts = ts) as ->. 2: { split; auto. now exists []. }
    destruct Hs as (b & e & -> & He & Hb). destruct b as [|t b]; auto. inversion Hb; subst. cbn [app cur hd] in E.
    exfalso. revert E. now apply tok_not_eof.
  - destruct (stream_step ts Hs E) as (Et & H & _). split; auto. now exists [cur ts].
Qed.

Section S.
Variable is_dtype : text -> bool.
Notation G := (G is_dtype).
Notation Stmt := (Stmt is_dtype).
Notation Stmts := (Stmts is_dtype).
Notation Block := (Block is_dtype).
Notation Choice := (Choice is_dtype).
Notation Elifs := (Elifs is_dtype).
Notation Else := (Else is_dtype).

Section St.
Variable rec : toks -> outcome (list stmt * toks).
Variable N : nat.
Definition ssres (ts : toks) (r : outcome (list stmt * toks)) : Prop :=
  match r with
  | Ret (ss, rest) => stream rest /\ exists c, ts = c ++ rest /\ (terminated ts -> Stmts c (map denote_stmt ss))
  | Err => True
  | _ => False
  end.
Hypothesis Hrec : forall ts, stream ts -> length ts < N -> ssres ts (rec ts).

Lemma block_ok ts : stream ts -> length ts <= N -> tres Block (map denote_stmt) ts (parse_block rec ts).
Proof.
  intros Hs HN. unfold parse_block. pose proof (expect_spec T_LBRACE ts Hs ltac:(discriminate) ltac:(discriminate)) as Hx.
  destruct (expect T_LBRACE ts) as [[l ts1]| | |]; auto. cbn [obind]. destruct Hx as (-> & E2 & E3 & _). cbn [length] in HN.
  pose proof (Hrec ts1 E3 ltac:(lia)) as Hr. destruct (rec ts1) as [[ss ts2]| | |]; auto. cbn [obind]. destruct Hr as (Hs2 & c & -> & Hg).
  pose proof (expect_spec T_RBRACE ts2 Hs2 ltac:(discriminate) ltac:(discriminate)) as Hx.
  destruct (expect T_RBRACE ts2) as [[r ts3]| | |]; auto. cbn [obind]. destruct Hx as (-> & F2 & F3 & _).
  split; auto. exists (l :: c ++ [r]). split; [discriminate|]. split. cbn [app]. now rewrite <- app_assoc.
  intros Ht. apply b_intro. apply (sym_of _ T_LBRACE); auto; in_table. apply Hg. eapply terminated_cons; eauto. apply (sym_of _ T_RBRACE); auto; in_table.
Qed.

Lemma choice_ok ts : stream ts -> length ts <= N ->
  tres (fun c x => Choice c (fst x) (snd x)) (fun p => (denote (fst p), map denote_stmt (snd p))) ts (parse_choice_statement is_dtype rec ts).
Proof.
  intros Hs HN. unfold parse_choice_statement. pose proof (expect_spec T_LPAREN ts Hs ltac:(discriminate) ltac:(discriminate)) as Hx.
  destruct (expect T_LPAREN ts) as [[l ts1]| | |]; auto. cbn [obind]. destruct Hx as (-> & E2 & E3 & _). cbn [length] in HN.
  pose proof (parse_expr_ok is_dtype ts1 E3) as Hr. destruct (parse_expr is_dtype ts1) as [[e ts2]| | |]; auto. cbn [obind]. destruct Hr as (Hs2 & c & Hc & -> & Hg).
  rewrite app_len in HN.
  pose proof (expect_spec T_RPAREN ts2 Hs2 ltac:(discriminate) ltac:(discriminate)) as Hx.
  destruct (expect T_RPAREN ts2) as [[r ts3]| | |]; auto. cbn [obind]. destruct Hx as (-> & F2 & F3 & _). cbn [length] in HN.
  pose proof (block_ok ts3 F3 ltac:(lia)) as Hb. destruct (parse_block rec ts3) as [[ss ts4]| | |]; auto. cbn [obind]. destruct Hb as (Hs4 & c4 & Hc4 & -> & Hg4).
  split; auto. exists (l :: c ++ r :: c4). split; [discriminate|]. split. cbn [app]. now rewrite <- app_assoc.
  intros Ht. cbn [fst snd]. apply c_intro; auto. apply (sym_of _ T_LPAREN); auto; in_table. apply (sym_of _ T_RPAREN); auto; in_table.
  apply Hg4. apply (terminated_suffix (l :: c ++ [r])). cbn [app]. now rewrite <- app_assoc.
Qed.

Lemma elifs_ok fuel : forall acc ts, stream ts -> length ts < fuel -> length ts <= N ->
  match parse_elifs is_dtype rec fuel acc ts with
  | Ret (es, rest) => stream rest /\ exists c new, es = acc ++ new /\ ts = c ++ rest /\
      (terminated ts -> Elifs c (map (fun x => match x with (c, b) => (denote c, map denote_stmt b) end) new))
  | Err => True
  | _ => False
  end.
Proof.
  induction fuel as [|fuel IH]; intros acc ts Hs Hf HN; [lia|]. cbn [parse_elifs]. unfold peek_is.
  destruct (tis (cur ts) T_ELIF) eqn:E.
  - apply tis_true in E. destruct (stream_step ts Hs) as (Et & Hs1 & _ & Hl); [congruence|].
    pose proof (choice_ok (advance ts) Hs1 ltac:(lia)) as Hc. destruct (parse_choice_statement is_dtype rec (advance ts)) as [[[e b] ts1]| | |]; auto. cbn [obind].
    destruct Hc as (Hs2 & c & Hc & Ec & Hg). pose proof (f_equal (@length _) Ec) as Hlc. rewrite app_len in Hlc.
    specialize (IH (acc ++ [(e, b)]) ts1 Hs2 ltac:(lia) ltac:(lia)). destruct (parse_elifs is_dtype rec fuel (acc ++ [(e, b)]) ts1) as [[es rest]| | |]; auto.
    destruct IH as (Hs3 & c' & new & -> & Ets & Hnew). split; auto. exists (cur ts :: c ++ c'), ((e, b) :: new).
    split. now rewrite <- app_assoc. split. rewrite Et at 1. cbn [app]. now rewrite Ec, Ets, app_assoc.
    intros Ht. rewrite Et in Ht. apply terminated_cons in Ht. cbn [map]. apply e_cons.
    apply (kw_of _ T_ELIF); auto; in_table. apply (Hg Ht). apply Hnew. rewrite Ec in Ht. now apply terminated_suffix in Ht.
  - split; auto. exists [], []. rewrite app_nil_r. split; auto. split; auto. intros _. constructor.
Qed.

Lemma ifelse_ok ts : stream ts -> tk (cur ts) = T_IF -> length ts <= N -> tres Stmt denote_stmt ts (parse_ifelse_statement is_dtype rec ts).
Proof.
  intros Hs Ek HN. destruct (stream_step ts Hs) as (Et & Hs1 & _ & Hl); [congruence|]. unfold parse_ifelse_statement.
  pose proof (choice_ok (advance ts) Hs1 ltac:(lia)) as Hc. destruct (parse_choice_statement is_dtype rec (advance ts)) as [[[e b] ts1]| | |]; auto. cbn [obind].
  destruct Hc as (Hs2 & c & Hc & Ec & Hg). pose proof (f_equal (@length _) Ec) as Hlc. rewrite app_len in Hlc.
  pose proof (elifs_ok (S (length ts1)) [] ts1 Hs2 ltac:(lia) ltac:(lia)) as He. destruct (parse_elifs is_dtype rec (S (length ts1)) [] ts1) as [[es ts2]| | |]; auto. cbn [obind].
  destruct He as (Hs3 & c' & new & -> & Ets & Hnew). pose proof (f_equal (@length _) Ets) as Hlc'. rewrite app_len in Hlc'.
  assert (is_kw "if" (cur ts)) as Hif by (apply (kw_of _ T_IF); auto; in_table).
  destruct (peek_is T_ELSE ts2) eqn:E.
  - unfold peek_is in E. apply tis_true in E. destruct (stream_step ts2 Hs3) as (Et2 & Hs4 & _ & Hl2); [congruence|].
    pose proof (block_ok (advance ts2) Hs4 ltac:(lia)) as Hb. destruct (parse_block rec (advance ts2)) as [[ss ts4]| | |]; auto. cbn [obind]. destruct Hb as (Hs5 & c5 & Hc5 & Ec5 & Hg5).
    assert (ts = cur ts :: c ++ c' ++ cur ts2 :: c5 ++ ts4) as Eall. { rewrite Et at 1. rewrite Ec, Ets. rewrite Et2 at 1. now rewrite Ec5. }
    split; auto. exists (cur ts :: c ++ c' ++ cur ts2 :: c5). split; [discriminate|]. split.
    rewrite Eall at 1. cbn [app]. rewrite <- !app_assoc. now cbn [app].
    intros Ht. rewrite Et in Ht. apply terminated_cons in Ht. cbn [denote_stmt fst snd app]. apply s_if; [exact Hif|exact (Hg Ht)| |].
    { rewrite Ec in Ht. apply terminated_suffix in Ht. auto. }
    rewrite Ec in Ht. apply terminated_suffix in Ht. rewrite Ets in Ht. apply terminated_suffix in Ht. rewrite Et2 in Ht. apply terminated_cons in Ht.
    apply el_some. apply (kw_of _ T_ELSE); auto; in_table. auto.
  - split; auto. exists (cur ts :: c ++ c'). split; [discriminate|]. split. rewrite Et at 1. cbn [app]. now rewrite Ec, Ets, app_assoc.
    intros Ht. rewrite Et in Ht. apply terminated_cons in Ht. cbn [denote_stmt fst snd app].
    replace (c ++ c') with (c ++ c' ++ []) by now rewrite app_nil_r. apply s_if; [exact Hif|exact (Hg Ht)| |constructor].
    rewrite Ec in Ht. apply terminated_suffix in Ht. auto.
Qed.

Lemma while_ok ts : stream ts -> tk (cur ts) = T_WHILE -> length ts <= N -> tres Stmt denote_stmt ts (parse_while_statement is_dtype rec ts).
Proof.
  intros Hs Ek HN. destruct (stream_step ts Hs) as (Et & Hs1 & _ & Hl); [congruence|]. unfold parse_while_statement.
  pose proof (choice_ok (advance ts) Hs1 ltac:(lia)) as Hc. destruct (parse_choice_statement is_dtype rec (advance ts)) as [[[e b] ts1]| | |]; auto. cbn [obind].
  destruct Hc as (Hs2 & c & Hc & Ec & Hg). split; auto. exists (cur ts :: c). split; [discriminate|]. split. rewrite Et at 1. now rewrite Ec.
  intros Ht. rewrite Et in Ht. apply terminated_cons in Ht. cbn [denote_stmt fst snd]. apply s_while. apply (kw_of _ T_WHILE); auto; in_table. apply (Hg Ht).
Qed.

Lemma return_ok ts : stream ts -> tk (cur ts) = T_RETURN -> tres Stmt denote_stmt ts (parse_return_statement is_dtype ts).
Proof.
  intros Hs Ek. destruct (stream_step ts Hs) as (Et & Hs1 & _ & Hl); [congruence|]. unfold parse_return_statement. cbv zeta.
  assert (is_kw "return" (cur ts)) as Hk by (apply (kw_of _ T_RETURN); auto; in_table).
  unfold peek_is. destruct (tis (cur (advance ts)) T_SEMICOLON).
  - cbn [obind]. pose proof (expect_spec T_SEMICOLON (advance ts) Hs1 ltac:(discriminate) ltac:(discriminate)) as Hx.
    destruct (expect T_SEMICOLON (advance ts)) as [[t ts2]| | |]; auto. cbn [obind]. destruct Hx as (E1 & E2 & E3 & _).
    split; auto. exists [cur ts; t]. split; [discriminate|]. split. rewrite Et at 1. now rewrite E1. intros _. apply s_return0; auto.
    apply (sym_of _ T_SEMICOLON); auto; in_table.
  - pose proof (parse_expr_ok is_dtype (advance ts) Hs1) as Hr. destruct (parse_expr is_dtype (advance ts)) as [[e ts2]| | |]; auto. cbn [obind]. destruct Hr as (Hs2 & c & Hc & Ec & Hg).
    pose proof (expect_spec T_SEMICOLON ts2 Hs2 ltac:(discriminate) ltac:(discriminate)) as Hx.
    destruct (expect T_SEMICOLON ts2) as [[t ts3]| | |]; auto. cbn [obind]. destruct Hx as (E1 & E2 & E3 & _).
    split; auto. exists (cur ts :: c ++ [t]). split; [discriminate|]. split. rewrite Et at 1. cbn [app]. now rewrite Ec, E1, <- app_assoc.
    intros _. cbn [denote_stmt]. apply s_return; auto. apply (sym_of _ T_SEMICOLON); auto; in_table.
Qed.

Lemma expr_stmt_ok ts : stream ts -> tres Stmt denote_stmt ts (parse_expr_statement is_dtype ts).
Proof.
  intros Hs. unfold parse_expr_statement.
  pose proof (parse_expr_ok is_dtype ts Hs) as Hr. destruct (parse_expr is_dtype ts) as [[e ts2]| | |]; auto. cbn [obind]. destruct Hr as (Hs2 & c & Hc & Ec & Hg).
  pose proof (expect_spec T_SEMICOLON ts2 Hs2 ltac:(discriminate) ltac:(discriminate)) as Hx.
  destruct (expect T_SEMICOLON ts2) as [[t ts3]| | |]; auto. cbn [obind]. destruct Hx as (E1 & E2 & E3 & _).
  split; auto. exists (c ++ [t]). split. destruct c; discriminate. split. now rewrite Ec, E1, <- app_assoc.
  intros _. cbn [denote_stmt]. apply s_expr; auto. apply (sym_of _ T_SEMICOLON); auto; in_table.
Qed.

Lemma jump_ok ts k s (mk : nat -> stmt) (d : st) : stream ts -> tk (cur ts) = k -> (k = T_CONTINUE \/ k = T_BREAK) ->
  In (s, k) keyword_table -> (forall n, denote_stmt (mk n) = d) ->
  (forall a b, is_kw s a -> is_sym ";" b -> Stmt [a; b] d) -> (s = "break" \/ s = "continue")%string ->
  match (if peek_is T_SEMICOLON (advance ts) then Some (mk (tp (cur ts))) else None, advance (advance ts)) with
  | (o, rest) => stream rest /\ exists c, ts = c ++ rest /\
     match o with Some x => c <> [] /\ Stmt c (denote_stmt x) | None => ~ terminated ts end
  end.
Proof.
  intros Hs Ek Hk Hin Hd Hst Hss. destruct (stream_step ts Hs) as (Et & Hs1 & _ & Hl). destruct Hk; congruence.
  destruct (stream_advance _ Hs1) as (Hs2 & c & Ec).
  destruct (peek_is T_SEMICOLON (advance ts)) eqn:E; (split; [auto|]).
  - unfold peek_is in E. apply tis_true in E. destruct (stream_step (advance ts) Hs1) as (Et1 & _). congruence.
    exists [cur ts; cur (advance ts)]. split. rewrite Et at 1. cbn [app]. now rewrite Et1 at 1. split; [discriminate|]. rewrite Hd. apply Hst.
    apply (kw_of _ k); auto. apply (sym_of _ T_SEMICOLON); auto; in_table.
  - exists (cur ts :: c). split. rewrite Et at 1. now rewrite Ec at 1. intros Ht. rewrite Et in Ht.
    destruct (Ht [] (cur ts) (advance ts) eq_refl) as (u & s' & Eu & Hu).
    { destruct Hss as [<-|<-]; [left|right]; apply (kw_of _ k); auto. }
    unfold peek_is in E. rewrite Eu in E. cbn [cur hd] in E. apply tis_false in E. apply E. apply (sym_kind _ _ Hu). in_table.
Qed.

Lemma statement_ok ts : stream ts -> length ts <= N ->
  match parse_statement is_dtype rec ts with
  | Ret (Some s, rest) => stream rest /\ exists c, c <> [] /\ ts = c ++ rest /\ (terminated ts -> Stmt c (denote_stmt s))
  | Ret (None, rest) => stream rest /\ exists c, ts = c ++ rest /\ (terminated ts -> c = [])
  | Err => True
  | _ => False
  end.
Proof.
  intros Hs HN. unfold parse_statement. cbv zeta.
  assert (forall r, tres Stmt denote_stmt ts r ->
    match (do! (s, ts1) <- r; Ret (Some s, ts1)) with
    | Ret (Some s, rest) => stream rest /\ exists c, c <> [] /\ ts = c ++ rest /\ (terminated ts -> Stmt c (denote_stmt s))
    | Ret (None, rest) => stream rest /\ exists c, ts = c ++ rest /\ (terminated ts -> c = [])
    | Err => True | _ => False end) as Hx.
  { intros [[s rest]| | |] H; auto. }
  destruct (tis (cur ts) T_CONTINUE) eqn:E1.
  { apply tis_true in E1. pose proof (jump_ok ts T_CONTINUE "continue" S_continue StContinue Hs E1 (or_introl eq_refl) ltac:(in_table) ltac:(auto) (s_continue is_dtype) (or_intror eq_refl)) as Hj.
    cbv beta iota in Hj. destruct (peek_is T_SEMICOLON (advance ts)); destruct Hj as (H1 & c & H2 & H3); (split; [auto|]); exists c.
    destruct H3. auto. split; auto. contradiction. }
  destruct (tis (cur ts) T_BREAK) eqn:E2.
  { apply tis_true in E2. pose proof (jump_ok ts T_BREAK "break" S_break StBreak Hs E2 (or_intror eq_refl) ltac:(in_table) ltac:(auto) (s_break is_dtype) (or_introl eq_refl)) as Hj.
    cbv beta iota in Hj. destruct (peek_is T_SEMICOLON (advance ts)); destruct Hj as (H1 & c & H2 & H3); (split; [auto|]); exists c.
    destruct H3. auto. split; auto. contradiction. }
  destruct (tis (cur ts) T_RETURN) eqn:E3. { apply tis_true in E3. apply Hx. now apply return_ok. }
  destruct (tis (cur ts) T_WHILE) eqn:E4. { apply tis_true in E4. apply Hx. now apply while_ok. }
  destruct (tis (cur ts) T_IF) eqn:E5. { apply tis_true in E5. apply Hx. now apply ifelse_ok. }
  destruct (starts_expr (tk (cur ts))). { apply Hx. now apply expr_stmt_ok. }
  split; auto. exists []. auto.
Qed.
End St.

Lemma statements_ok fuel : forall ts, stream ts -> length ts < fuel -> ssres ts (parse_statements is_dtype fuel ts).
Proof.
  induction fuel as [|fuel IH]; intros ts Hs Hf; [lia|]. cbn [parse_statements].
  pose proof (statement_ok (parse_statements is_dtype fuel) (length ts)) as Hst.
  specialize (Hst ltac:(intros; apply IH; auto; lia) ts Hs (le_n _)).
  destruct (parse_statement is_dtype (parse_statements is_dtype fuel) ts) as [[[s|] ts1]| | |]; auto; cbn [obind].
  - destruct Hst as (Hs1 & c & Hc & Ec & Hg). pose proof (f_equal (@length _) Ec) as Hlc. rewrite app_len in Hlc.
    assert (length c <> 0) by (destruct c; [congruence|simpl; lia]).
    specialize (IH ts1 Hs1 ltac:(lia)). destruct (parse_statements is_dtype fuel ts1) as [[ss rest]| | |]; auto. cbn [obind].
    destruct IH as (Hs2 & c2 & Ec2 & Hg2). split; auto. exists (c ++ c2). split. now rewrite Ec, Ec2, app_assoc.
    intros Ht. cbn [map]. apply ss_cons; auto. apply Hg2. rewrite Ec in Ht. now apply terminated_suffix in Ht.
  - destruct Hst as (Hs1 & c & Ec & Hg). split; auto. exists c. split; auto. intros Ht. rewrite (Hg Ht). constructor.
Qed.

Section F.
Context {D : Type}.
Variable find_dtype : text -> option D.

Lemma type_args_ok fuel : forall name ts, stream ts -> length ts < fuel ->
  match type_args fuel name ts with
  | Ret (n, rest) => stream rest /\ exists c, ts = c ++ rest /\ n = name ++ concat (map tx c) /\
      Forall (fun x => ~ is_sym ">" x /\ tk x <> T_EOF /\ tk x <> T_ERROR) c
  | Err => True
  | _ => False
  end.
Proof.
  induction fuel as [|fuel IH]; intros name ts Hs Hf; [lia|]. cbn [type_args].
  destruct (negb (peek_is T_GT ts) && negb (peek_is T_EOF ts)) eqn:E.
  2: { split; auto. exists []. split; auto. split; [|constructor]. simpl. now rewrite app_nil_r. }
  apply andb_true_iff in E as [E1 E2]. apply negb_true_iff in E1, E2. unfold peek_is in E1, E2. apply tis_false in E1, E2.
  destruct (peek_is T_ERROR ts) eqn:E3; [exact I|]. unfold peek_is in E3. apply tis_false in E3.
  destruct (stream_step ts Hs E2) as (Et & Hs1 & Hok & Hl). cbv zeta.
  assert (~ is_sym ">" (cur ts)) as Hgt. { intros H. apply E1. apply (sym_kind _ _ H). in_table. }
  destruct (peek_is T_COMMA (advance ts)) eqn:E4.
  - unfold peek_is in E4. apply tis_true in E4. destruct (stream_step (advance ts) Hs1) as (Et1 & Hs2 & Hok1 & Hl1). congruence.
    specialize (IH ((name ++ tx (cur ts)) ++ lit ",") (advance (advance ts)) Hs2 ltac:(lia)).
    destruct (type_args fuel ((name ++ tx (cur ts)) ++ lit ",") (advance (advance ts))) as [[n rest]| | |]; auto.
    destruct IH as (Hs3 & c & Ec & En & Hc). split; auto. exists (cur ts :: cur (advance ts) :: c).
    split. rewrite Et at 1. cbn [app]. rewrite Et1 at 1. now rewrite Ec at 1.
    assert (tx (cur (advance ts)) = lit ",") as Ecomma.
    { specialize (Hok1 ltac:(congruence)). unfold tok_ok in Hok1. rewrite E4 in Hok1. inversion Hok1 as [s k Hk|s k Hk| | |]; subst.
      - simpl in Hk. repeat (destruct Hk as [Hk|Hk]; [discriminate|]). contradiction.
      - simpl in Hk. repeat (destruct Hk as [Hk|Hk]; [first [discriminate Hk|injection Hk as <-; reflexivity]|]). contradiction. }
    split. { rewrite En. cbn [map concat]. rewrite Ecomma, <- !app_assoc. reflexivity. }
    constructor; auto. constructor; auto. rewrite E4. repeat split; try discriminate. intros H. pose proof (sym_kind _ _ H T_GT ltac:(in_table)). congruence.
  - specialize (IH (name ++ tx (cur ts)) (advance ts) Hs1 ltac:(lia)).
    destruct (type_args fuel (name ++ tx (cur ts)) (advance ts)) as [[n rest]| | |]; auto.
    destruct IH as (Hs3 & c & Ec & En & Hc). split; auto. exists (cur ts :: c). split. rewrite Et at 1. now rewrite Ec at 1.
    split. { rewrite En. cbn [map concat]. now rewrite <- app_assoc. } constructor; auto.
Qed.

Lemma advance_eof ts : stream ts -> tk (cur ts) = T_EOF -> advance ts = ts.
Proof.
  intros (b & e & -> & He & Hb) Ee. destruct b as [|t b]; auto. inversion Hb; subst. cbn [app cur hd] in Ee. exfalso. revert Ee. now apply tok_not_eof.
Qed.

Lemma read_type_name_ok ts : stream ts -> tk (cur ts) <> T_EOF ->
  match read_type_name ts with
  | Ret (n, rest) => stream rest /\ exists c, c <> [] /\ ts = c ++ rest /\ TypeName c n
  | Err => True
  | _ => False
  end.
Proof.
  intros Hs Ee. unfold read_type_name. cbv zeta. destruct (stream_step ts Hs Ee) as (Et & Hs1 & _ & Hl).
  unfold peek_is at 1. destruct (tis (cur (advance ts)) T_LT) eqn:E.
  2: { split; auto. exists [cur ts]. split; [discriminate|]. split; auto. constructor. }
  apply tis_true in E. destruct (stream_step (advance ts) Hs1) as (Et1 & Hs2 & _ & Hl1); [congruence|].
  pose proof (type_args_ok (S (length (advance ts))) (tx (cur ts) ++ lit "<") (advance (advance ts)) Hs2 ltac:(lia)) as Ha.
  destruct (type_args (S (length (advance ts))) (tx (cur ts) ++ lit "<") (advance (advance ts))) as [[n ts2]| | |]; auto. cbn [obind].
  destruct Ha as (Hs3 & c & Ec & -> & Hc). unfold peek_is. destruct (tis (cur ts2) T_GT) eqn:E2; [|exact I].
  apply tis_true in E2. destruct (stream_step ts2 Hs3) as (Et2 & Hs4 & _ & _); [congruence|].
  split; auto. exists (cur ts :: cur (advance ts) :: c ++ [cur ts2]). split; [discriminate|]. split.
  - rewrite Et at 1. cbn [app]. rewrite Et1 at 1. rewrite Ec at 1. rewrite Et2 at 1. now rewrite <- app_assoc.
  - rewrite <- !app_assoc. apply tn_args; auto. apply (sym_of _ T_LT); auto; in_table. apply (sym_of _ T_GT); auto; in_table.
Qed.

Lemma typed_name_ok ts : stream ts ->
  sres (fun c x => TypedName is_dtype find_dtype c (fst x) (snd x)) (fun x => x) ts (parse_typed_name is_dtype find_dtype ts).
Proof.
  intros Hs. unfold parse_typed_name. destruct (tkind_eq_dec (tk (cur ts)) T_EOF) as [Ee|Ee].
  - unfold read_type_name. cbv zeta. rewrite (advance_eof ts Hs Ee). unfold peek_is at 1. replace (tis (cur ts) T_LT) with false.
    2: { symmetry. apply tis_false. congruence. }
    cbn [obind]. destruct (find_dtype (tx (cur ts))); [|exact I]. unfold expect, peek_is. replace (tis (cur ts) T_IDENTIFIER) with false. exact I.
    symmetry. apply tis_false. congruence.
  - pose proof (read_type_name_ok ts Hs Ee) as Hr. destruct (read_type_name ts) as [[n ts1]| | |]; auto. cbn [obind].
    destruct Hr as (Hs1 & c & Hc & Ec & Hg). destruct (find_dtype n) as [d|] eqn:Ed; [|exact I].
    pose proof (expect_spec T_IDENTIFIER ts1 Hs1 ltac:(discriminate) ltac:(discriminate)) as Hx.
    destruct (expect T_IDENTIFIER ts1) as [[t ts2]| | |]; auto. cbn [obind]. destruct Hx as (E1 & E2 & E3 & _).
    destruct (valid_identifier is_dtype (tx t)) eqn:Ev; [|exact I]. split; auto. exists (c ++ [t]). split. destruct c; discriminate.
    split. now rewrite Ec, E1, <- app_assoc. cbn [fst snd]. eapply td_intro; eauto.
    unfold valid_identifier in Ev. apply andb_true_iff in Ev as [Ev _]. now apply negb_true_iff in Ev.
Qed.

Lemma func_arg_ok ts : stream ts ->
  sres (fun c x => TypedName is_dtype find_dtype c (fst x) (snd x)) (fun a => (a_type a, a_name a)) ts (parse_func_arg is_dtype find_dtype ts).
Proof.
  intros Hs. unfold parse_func_arg. pose proof (typed_name_ok ts Hs) as Ht. destruct (parse_typed_name is_dtype find_dtype ts) as [[[d n] ts1]| | |]; auto.
Qed.

(** A list of arguments after a first one. *)
Inductive more_fa : list token -> list (D * text) -> Prop :=
| mfa_nil : more_fa [] []
| mfa_cons c ts d n ts' l : is_sym "," c -> TypedName is_dtype find_dtype ts d n -> more_fa ts' l -> more_fa (c :: ts ++ ts') ((d, n) :: l).
Lemma more_fa_args ts' l : more_fa ts' l -> forall ts d n, TypedName is_dtype find_dtype ts d n -> FuncArgs is_dtype find_dtype (ts ++ ts') ((d, n) :: l).
Proof.
  induction 1; intros ts0 d0 n0 HH. rewrite app_nil_r. now constructor. apply fa_cons; auto.
Qed.

Lemma more_args_ok fuel : forall acc ts, stream ts -> length ts < fuel ->
  match more_args is_dtype find_dtype fuel acc ts with
  | Ret (l, rest) => stream rest /\ exists c new, l = acc ++ new /\ ts = c ++ rest /\ more_fa c (map (fun a => (a_type a, a_name a)) new)
  | Err => True
  | _ => False
  end.
Proof.
  induction fuel as [|fuel IH]; intros acc ts Hs Hf; [lia|]. cbn [more_args]. unfold peek_is. destruct (tis (cur ts) T_COMMA) eqn:E.
  - apply tis_true in E. destruct (stream_step ts Hs) as (Et & Hs1 & _ & Hl); [congruence|].
    pose proof (func_arg_ok (advance ts) Hs1) as Ha. destruct (parse_func_arg is_dtype find_dtype (advance ts)) as [[a ts1]| | |]; auto. cbn [obind].
    destruct Ha as (Hs2 & c & Hc & Ec & Hg). pose proof (f_equal (@length _) Ec) as Hlc. rewrite app_len in Hlc.
    specialize (IH (acc ++ [a]) ts1 Hs2 ltac:(lia)). destruct (more_args is_dtype find_dtype fuel (acc ++ [a]) ts1) as [[l rest]| | |]; auto.
    destruct IH as (Hs3 & c' & new & -> & Ets & Hnew). split; auto. exists (cur ts :: c ++ c'), (a :: new). split. now rewrite <- app_assoc.
    split. rewrite Et at 1. rewrite Ec at 1. rewrite Ets at 1. cbn [app]. now rewrite app_assoc. cbn [map]. apply mfa_cons; auto. apply (sym_of _ T_COMMA); auto; in_table.
  - split; auto. exists [], []. rewrite app_nil_r. split; auto. split; auto. constructor.
Qed.

Lemma func_ok pos ts : stream ts -> tres (FuncG is_dtype find_dtype) denote_func ts (parse_func is_dtype find_dtype pos ts).
Proof.
  intros Hs. unfold parse_func.
  pose proof (typed_name_ok ts Hs) as Hr. destruct (parse_typed_name is_dtype find_dtype ts) as [[[d n] ts1]| | |]; auto. cbn [obind].
  destruct Hr as (Hs1 & c & Hc & Ec & Hg). cbn [fst snd] in *.
  pose proof (expect_spec T_LPAREN ts1 Hs1 ltac:(discriminate) ltac:(discriminate)) as Hx.
  destruct (expect T_LPAREN ts1) as [[lp ts2]| | |]; auto. cbn [obind]. destruct Hx as (E1 & E2 & Hs2 & _).
  assert (is_sym "(" lp) as Hlp by (apply (sym_of _ T_LPAREN); auto; in_table).
  assert (forall ts3 (args : option (list (@func_arg D))) ca, stream ts3 -> ts2 = ca ++ ts3 ->
     (forall lp rp ts' b, is_sym "(" lp -> is_sym ")" rp -> Block ts' b ->
        FuncG is_dtype find_dtype (c ++ lp :: ca ++ rp :: ts') (Fn d n (match args with None => [] | Some l => map (fun a => (a_type a, a_name a)) l end) b)) ->
     tres (FuncG is_dtype find_dtype) denote_func ts
       (do! (_, ts4) <- expect T_RPAREN ts3; do! (body, ts5) <- parse_block (fun ts => parse_statements is_dtype (S (length ts)) ts) ts4;
        Ret (Func d n args body pos, ts5))) as Hend.
  { intros ts3 args ca Hs3 Eca Hfin.
    pose proof (expect_spec T_RPAREN ts3 Hs3 ltac:(discriminate) ltac:(discriminate)) as Hx.
    destruct (expect T_RPAREN ts3) as [[rp ts4]| | |]; auto. cbn [obind]. destruct Hx as (F1 & F2 & Hs4 & _).
    pose proof (block_ok (fun ts => parse_statements is_dtype (S (length ts)) ts) (length ts4) ltac:(intros; apply statements_ok; auto) ts4 Hs4 (le_n _)) as Hb.
    destruct (parse_block (fun ts => parse_statements is_dtype (S (length ts)) ts) ts4) as [[ss ts5]| | |]; auto. cbn [obind].
    destruct Hb as (Hs5 & cb & Hcb & Ecb & Hgb). split; auto. exists (c ++ lp :: ca ++ rp :: cb). split. destruct c; discriminate.
    assert (ts = (c ++ lp :: ca ++ [rp]) ++ ts4) as Eall. { rewrite Ec, E1, Eca, F1. rewrite <- !app_assoc. cbn [app]. now rewrite <- app_assoc. }
    split. rewrite Eall, Ecb. rewrite <- !app_assoc. cbn [app]. rewrite <- !app_assoc. reflexivity.
    intros Ht. unfold denote_func. cbn [f_ret f_name Parser_Model.f_args f_body]. apply Hfin; auto. apply (sym_of _ T_RPAREN); auto; in_table.
    apply Hgb. rewrite Eall in Ht. now apply terminated_suffix in Ht. }
  unfold peek_is. destruct (tis (cur ts2) T_RPAREN) eqn:E.
  - cbn [obind]. apply (Hend ts2 None []); auto. intros. cbn [app]. apply f_noargs; auto.
  - pose proof (func_arg_ok ts2 Hs2) as Ha. destruct (parse_func_arg is_dtype find_dtype ts2) as [[a ts3]| | |]; auto. cbn [obind].
    destruct Ha as (Hs3 & ca & Hca & Eca & Hga).
    pose proof (more_args_ok (S (length ts3)) [a] ts3 Hs3 ltac:(lia)) as Hm. destruct (more_args is_dtype find_dtype (S (length ts3)) [a] ts3) as [[l ts4]| | |]; auto. cbn [obind].
    destruct Hm as (Hs4 & cm & new & -> & Ecm & Hm). apply (Hend ts4 (Some ([a] ++ new)) (ca ++ cm)); auto. now rewrite Eca, Ecm, app_assoc.
    intros. apply f_args; auto. cbn [app map]. now apply more_fa_args.
Qed.

Lemma funcs_ok fuel : forall ts, stream ts -> length ts < fuel ->
  match parse_funcs is_dtype find_dtype fuel ts with
  | Ret fs => exists c e, ts = c ++ [e] /\ tk e = T_EOF /\ (terminated ts -> Program is_dtype find_dtype c (map denote_func fs))
  | Err => True
  | _ => False
  end.
Proof.
  induction fuel as [|fuel IH]; intros ts Hs Hf; [lia|]. cbn [parse_funcs]. destruct (peek_is T_EOF ts) eqn:E.
  - unfold peek_is in E. apply tis_true in E. destruct Hs as (b & e & -> & He & Hb). destruct b as [|t b].
    exists [], e. split; auto. split; auto. intros _. constructor.
    inversion Hb; subst. cbn [app cur hd] in E. exfalso. revert E. now apply tok_not_eof.
  - pose proof (func_ok (tp (cur ts) + length (tx (cur ts))) ts Hs) as Hr.
    destruct (parse_func is_dtype find_dtype (tp (cur ts) + length (tx (cur ts))) ts) as [[f ts1]| | |]; auto. cbn [obind].
    destruct Hr as (Hs1 & c & Hc & Ec & Hg). pose proof (f_equal (@length _) Ec) as Hlc. rewrite app_len in Hlc.
    assert (length c <> 0) by (destruct c; [congruence|simpl; lia]).
    specialize (IH ts1 Hs1 ltac:(lia)). destruct (parse_funcs is_dtype find_dtype fuel ts1) as [fs| | |]; auto. cbn [obind].
    destruct IH as (c1 & e & Ec1 & He & Hp). exists (c ++ c1), e. split. now rewrite Ec, Ec1, app_assoc. split; auto.
    intros Ht. cbn [map]. apply p_cons; auto. apply Hp. rewrite Ec in Ht. now apply terminated_suffix in Ht.
Qed.
End F.
End S.
