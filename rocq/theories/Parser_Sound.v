(** What the parser accepts is derivable, and it never hangs. *)
From Coq Require Import Ascii String List Bool Arith ZArith Lia.
Import ListNotations.
From Verif Require Import Base Lexer_Model Lexer_Spec Lexer_Proofs Op_Model Number_Model Parser_Model Parser_Spec Parser_Lemmas.

Definition sres {A X} (P : list token -> X -> Prop) (d : A -> X) (ts : toks) (r : outcome (A * toks)) : Prop :=
  match r with
  | Ret (a, rest) => stream rest /\ exists c, c <> [] /\ ts = c ++ rest /\ P c (d a)
  | Err => True
  | _ => False
  end.

Lemma expect_spec k ts : stream ts -> k <> T_EOF -> k <> T_ERROR ->
  match expect k ts with
  | Ret (t, ts') => ts = t :: ts' /\ tk t = k /\ stream ts' /\ tok_ok t
  | Err => True
  | _ => False
  end.
Proof.
  intros Hs H1 H2. unfold expect, peek_is. destruct (tis (cur ts) k) eqn:E; auto. apply tis_true in E.
  destruct (stream_step ts Hs) as (E1 & E2 & E3 & _). congruence. split; auto. split; auto. split; auto. apply E3. congruence.
Qed.

Lemma app_len {A} (a b : list A) : length (a ++ b) = length a + length b.
Proof. apply app_length. Qed.

Section S.
Variable is_dtype : text -> bool.
Notation G := (G is_dtype).
Notation List1 := (List1 is_dtype).
Notation Args := (Args is_dtype).
Notation Members := (Members is_dtype).
Notation Member := (Member is_dtype).
Notation Rest := (Rest is_dtype).

Section E.
Variable rec : toks -> outcome (operand * toks).
Variable N : nat.
Definition r1 (ts : toks) (r : outcome (operand * toks)) : Prop :=
  sres (G 1) denote ts r /\ match r with Ret (_, rest) => assign_op (tk (cur rest)) = None | _ => True end.
Hypothesis Hrec : forall ts, stream ts -> length ts < N -> r1 ts (rec ts).

Ltac step_tok ts Hs k E :=
  let E1 := fresh "Et" in let E2 := fresh "Hs" in let E3 := fresh "Hok" in let E4 := fresh "Hl" in
  destruct (stream_step ts Hs) as (E1 & E2 & E3 & E4); [congruence|].

Lemma more_exprs_ok fuel : forall acc ts, stream ts -> length ts < fuel -> length ts <= N ->
  match more_exprs rec fuel acc ts with
  | Ret (es, rest) => stream rest /\ exists c new, es = acc ++ new /\ ts = c ++ rest /\
      (forall c0 e0, G 1 c0 e0 -> List1 (c0 ++ c) (e0 :: map denote new))
  | Err => True
  | _ => False
  end.
Proof.
  induction fuel as [|fuel IH]; intros acc ts Hs Hf HN; [lia|]. cbn [more_exprs]. unfold peek_is.
  destruct (tis (cur ts) T_COMMA) eqn:E.
  - apply tis_true in E. destruct (stream_step ts Hs) as (Et & Hs1 & _ & Hl); [congruence|].
    destruct (Hrec (advance ts) Hs1 ltac:(lia)) as [Hr _]. destruct (rec (advance ts)) as [[e ts1]| | |]; try exact Hr. cbn [obind].
    destruct Hr as (Hs2 & c & Hc & Ec & Hg). pose proof (f_equal (@length _) Ec) as Hlc. rewrite app_len in Hlc.
    assert (length c <> 0) by (destruct c; [congruence|simpl; lia]).
    specialize (IH (acc ++ [e]) ts1 Hs2 ltac:(lia) ltac:(lia)). destruct (more_exprs rec fuel (acc ++ [e]) ts1) as [[es rest]| | |]; auto.
    destruct IH as (Hs3 & c' & new & Ees & Ets & Hnew). split; auto. exists (cur ts :: c ++ c'), (e :: new).
    split. now rewrite Ees, <- app_assoc. split. rewrite Et at 1. cbn [app]. now rewrite Ec, Ets, app_assoc.
    intros c0 e0 H0. cbn [map]. apply l_cons; auto. apply (sym_of _ T_COMMA); [in_table|auto].
  - split; auto. exists [], []. rewrite !app_nil_r. split; auto. split; auto. intros c0 e0 H0. rewrite app_nil_r. now constructor.
Qed.

Lemma args_ok ts : stream ts -> tk (cur ts) = T_LPAREN -> length ts <= N ->
  sres Args (fun a => match a with Some l => map denote l | None => [] end) ts (parse_func_invoke_args rec ts).
Proof.
  intros Hs Ek HN. destruct (stream_step ts Hs) as (Et & Hs1 & _ & Hl); [congruence|].
  unfold parse_func_invoke_args. unfold peek_is. destruct (tis (cur (advance ts)) T_RPAREN) eqn:E.
  - cbn [obind]. pose proof (expect_spec T_RPAREN (advance ts) Hs1 ltac:(discriminate) ltac:(discriminate)) as Hx.
    destruct (expect T_RPAREN (advance ts)) as [[t ts2]| | |]; auto. cbn [obind]. destruct Hx as (E1 & E2 & E3 & _).
    split; auto. exists [cur ts; t]. split; [discriminate|]. split. rewrite Et at 1. now rewrite E1.
    constructor; [apply (sym_of _ T_LPAREN)|apply (sym_of _ T_RPAREN)]; auto; in_table.
  - destruct (Hrec (advance ts) Hs1 ltac:(lia)) as [Hr _]. destruct (rec (advance ts)) as [[e ts1]| | |]; try exact Hr. cbn [obind].
    destruct Hr as (Hs2 & c & Hc & Ec & Hg). pose proof (f_equal (@length _) Ec) as Hlc. rewrite app_len in Hlc.
    pose proof (more_exprs_ok (S (length ts1)) [e] ts1 Hs2 ltac:(lia) ltac:(lia)) as Hm.
    destruct (more_exprs rec (S (length ts1)) [e] ts1) as [[es ts2]| | |]; auto. cbn [obind].
    destruct Hm as (Hs3 & c' & new & Ees & Ets & Hnew).
    pose proof (expect_spec T_RPAREN ts2 Hs3 ltac:(discriminate) ltac:(discriminate)) as Hx.
    destruct (expect T_RPAREN ts2) as [[t ts3]| | |]; auto. cbn [obind]. destruct Hx as (E1 & E2 & E3 & _).
    split; auto. exists (cur ts :: (c ++ c') ++ [t]). split; [discriminate|]. split.
    rewrite Et at 1. cbn [app]. rewrite Ec, Ets, E1. now rewrite <- !app_assoc.
    rewrite Ees. cbn [app map]. apply a_some; auto. apply (sym_of _ T_LPAREN); auto; in_table. apply (sym_of _ T_RPAREN); auto; in_table.
Qed.

Lemma array_ok ts : stream ts -> tk (cur ts) = T_LBRACKET -> length ts <= N -> sres (G 9) denote ts (parse_array rec ts).
Proof.
  intros Hs Ek HN. destruct (stream_step ts Hs) as (Et & Hs1 & _ & Hl); [congruence|].
  unfold parse_array. cbv zeta. unfold peek_is. destruct (tis (cur (advance ts)) T_RBRACKET) eqn:E.
  - cbn [obind]. pose proof (expect_spec T_RBRACKET (advance ts) Hs1 ltac:(discriminate) ltac:(discriminate)) as Hx.
    destruct (expect T_RBRACKET (advance ts)) as [[t ts2]| | |]; auto. cbn [obind]. destruct Hx as (E1 & E2 & E3 & _).
    split; auto. exists [cur ts; t]. split; [discriminate|]. split. rewrite Et at 1. now rewrite E1.
    cbn [denote map]. apply g_array0; [apply (sym_of _ T_LBRACKET)|apply (sym_of _ T_RBRACKET)]; auto; in_table.
  - destruct (Hrec (advance ts) Hs1 ltac:(lia)) as [Hr _]. destruct (rec (advance ts)) as [[e ts1]| | |]; try exact Hr. cbn [obind].
    destruct Hr as (Hs2 & c & Hc & Ec & Hg). pose proof (f_equal (@length _) Ec) as Hlc. rewrite app_len in Hlc.
    pose proof (more_exprs_ok (S (length ts1)) [e] ts1 Hs2 ltac:(lia) ltac:(lia)) as Hm.
    destruct (more_exprs rec (S (length ts1)) [e] ts1) as [[es ts2]| | |]; auto. cbn [obind].
    destruct Hm as (Hs3 & c' & new & Ees & Ets & Hnew).
    pose proof (expect_spec T_RBRACKET ts2 Hs3 ltac:(discriminate) ltac:(discriminate)) as Hx.
    destruct (expect T_RBRACKET ts2) as [[t ts3]| | |]; auto. cbn [obind]. destruct Hx as (E1 & E2 & E3 & _).
    split; auto. exists (cur ts :: (c ++ c') ++ [t]). split; [discriminate|]. split.
    rewrite Et at 1. cbn [app]. rewrite Ec, Ets, E1. now rewrite <- !app_assoc.
    rewrite Ees. cbn [denote app map]. apply g_array; auto. apply (sym_of _ T_LBRACKET); auto; in_table. apply (sym_of _ T_RBRACKET); auto; in_table.
Qed.

Lemma field_ok ts : stream ts -> tk (cur ts) = T_DOT -> length ts <= N -> sres Member denote_member ts (parse_field_access rec ts).
Proof.
  intros Hs Ek HN. destruct (stream_step ts Hs) as (Et & Hs1 & _ & Hl); [congruence|].
  assert (is_sym "." (cur ts)) as Hd by (apply (sym_of _ T_DOT); [in_table|auto]).
  unfold parse_field_access. pose proof (expect_spec T_IDENTIFIER (advance ts) Hs1 ltac:(discriminate) ltac:(discriminate)) as Hx.
  destruct (expect T_IDENTIFIER (advance ts)) as [[t ts1]| | |]; auto. cbn [obind]. destruct Hx as (E1 & E2 & E3 & _).
  unfold peek_is. destruct (tis (cur ts1) T_LPAREN) eqn:E.
  - apply tis_true in E. pose proof (args_ok ts1 E3 E) as Ha. rewrite Et, E1 in HN. simpl in HN. specialize (Ha ltac:(lia)).
    destruct (parse_func_invoke_args rec ts1) as [[a ts2]| | |]; auto. cbn [obind]. destruct Ha as (Hs2 & c & Hc & Ec & Hg).
    split; auto. exists (cur ts :: t :: c). split; [discriminate|]. split. rewrite Et at 1. now rewrite E1, Ec.
    destruct a; cbn [denote_member]; apply m_call; auto.
  - split; auto. exists [cur ts; t]. split; [discriminate|]. split. rewrite Et at 1. now rewrite E1. now constructor.
Qed.

Lemma dynamic_ok ts : stream ts -> tk (cur ts) = T_LBRACKET -> sres Member denote_member ts (parse_dynamic_param_access ts).
Proof.
  intros Hs Ek. destruct (stream_step ts Hs) as (Et & Hs1 & _ & Hl); [congruence|].
  assert (is_sym "[" (cur ts)) as Hd by (apply (sym_of _ T_LBRACKET); [in_table|auto]).
  unfold parse_dynamic_param_access. cbv zeta.
  assert (forall m, tk (cur (advance ts)) <> T_EOF ->
    (forall r, is_sym "]" r -> Member [cur ts; cur (advance ts); r] (denote_member m)) ->
    sres Member denote_member ts (do! (_, ts2) <- expect T_RBRACKET (advance (advance ts)); Ret (m, ts2))) as Hx.
  { intros m Hne Hm. destruct (stream_step (advance ts) Hs1 Hne) as (Et1 & Hs2 & _ & _).
    pose proof (expect_spec T_RBRACKET (advance (advance ts)) Hs2 ltac:(discriminate) ltac:(discriminate)) as Hx.
    destruct (expect T_RBRACKET (advance (advance ts))) as [[t ts1]| | |]; auto. cbn [obind]. destruct Hx as (E1 & E2 & E3 & _).
    split; auto. exists [cur ts; cur (advance ts); t]. split; [discriminate|]. split.
    rewrite Et at 1. cbn [app]. rewrite Et1 at 1. now rewrite E1. apply Hm. apply (sym_of _ T_RBRACKET); auto; in_table. }
  destruct (tis (cur (advance ts)) T_STRING) eqn:E.
  { apply tis_true in E. cbn [obind]. apply Hx. congruence. intros r Hr. cbn [denote_member].
    destruct (stream_step (advance ts) Hs1) as (_ & _ & Hok & _). congruence. specialize (Hok ltac:(congruence)).
    unfold tok_ok in Hok. rewrite E in Hok. apply lexeme_string in Hok as (s & Es & _). rewrite Es, strip_quoted. now constructor. }
  destruct (tis (cur (advance ts)) T_NUMBER) eqn:E'.
  { apply tis_true in E'. cbn [obind]. apply Hx. congruence. intros r Hr. cbn [denote_member]. now constructor. }
  destruct (tis (cur (advance ts)) T_IDENTIFIER) eqn:E''.
  { apply tis_true in E''. cbn [obind]. apply Hx. congruence. intros r Hr. cbn [denote_member]. now constructor. }
  exact I.
Qed.

Lemma members_ok fuel : forall acc ts, stream ts -> length ts < fuel -> length ts <= N ->
  match parse_member_access rec fuel acc ts with
  | Ret (ms, rest) => stream rest /\ exists c new, ms = acc ++ new /\ ts = c ++ rest /\
      ((c = [] /\ new = []) \/ Members c (map denote_member new)) /\
      (peek_is T_DOT ts || peek_is T_LBRACKET ts = true -> new <> [])
  | Err => True
  | _ => False
  end.
Proof.
  induction fuel as [|fuel IH]; intros acc ts Hs Hf HN; [lia|]. cbn [parse_member_access].
  assert (forall (r : outcome (member * toks)), sres Member denote_member ts r ->
    match (do! (m, ts1) <- r; parse_member_access rec fuel (acc ++ [m]) ts1) with
    | Ret (ms, rest) => stream rest /\ exists c new, ms = acc ++ new /\ ts = c ++ rest /\
        ((c = [] /\ new = []) \/ Members c (map denote_member new)) /\ new <> []
    | Err => True | _ => False end) as Hx.
  { intros [[m ts1]| | |] Hr; auto. cbn [obind]. destruct Hr as (Hs1 & c & Hc & Ec & Hm).
    pose proof (f_equal (@length _) Ec) as Hlc. rewrite app_len in Hlc. assert (length c <> 0) by (destruct c; [congruence|simpl; lia]).
    specialize (IH (acc ++ [m]) ts1 Hs1 ltac:(lia) ltac:(lia)). destruct (parse_member_access rec fuel (acc ++ [m]) ts1) as [[ms rest]| | |]; auto.
    destruct IH as (Hs2 & c' & new & Ems & Ets & Hnew & _). split; auto. exists (c ++ c'), (m :: new).
    split. now rewrite Ems, <- app_assoc. split. now rewrite Ec, Ets, app_assoc. split; [|discriminate]. right. cbn [map].
    destruct Hnew as [[-> ->]|Hnew]. rewrite app_nil_r. now constructor. now constructor. }
  destruct (peek_is T_DOT ts) eqn:E.
  - specialize (Hx _ (field_ok ts Hs (proj1 (tis_true _ _) E) HN)).
    destruct (do! (m, ts1) <- parse_field_access rec ts; parse_member_access rec fuel (acc ++ [m]) ts1) as [[ms rest]| | |]; auto.
    destruct Hx as (H1 & c & new & H2 & H3 & H4 & H5). split; auto. exists c, new. auto.
  - destruct (peek_is T_LBRACKET ts) eqn:E'.
    + specialize (Hx _ (dynamic_ok ts Hs (proj1 (tis_true _ _) E'))).
      destruct (do! (m, ts1) <- parse_dynamic_param_access ts; parse_member_access rec fuel (acc ++ [m]) ts1) as [[ms rest]| | |]; auto.
      destruct Hx as (H1 & c & new & H2 & H3 & H4 & H5). split; auto. exists c, new. auto.
    + split; auto. exists [], []. rewrite app_nil_r. split; auto. split; auto. split; auto. discriminate.
Qed.

Lemma accessor_ok ts : stream ts -> tk (cur ts) = T_IDENTIFIER -> length ts <= N -> sres (G 9) denote ts (parse_var_accessor is_dtype rec ts).
Proof.
  intros Hs Ek HN. destruct (stream_step ts Hs) as (Et & Hs1 & _ & Hl); [congruence|].
  unfold parse_var_accessor. cbv zeta. destruct (valid_identifier is_dtype (tx (cur ts))) eqn:Ev; [|exact I].
  assert (is_dtype (tx (cur ts)) = false) as Hd.
  { unfold valid_identifier in Ev. apply andb_true_iff in Ev as [Ev _]. now apply negb_true_iff in Ev. }
  destruct (peek_is T_DOT (advance ts) || peek_is T_LBRACKET (advance ts)) eqn:E.
  - pose proof (members_ok (S (length (advance ts))) [] (advance ts) Hs1 ltac:(lia) ltac:(lia)) as Hm.
    destruct (parse_member_access rec (S (length (advance ts))) [] (advance ts)) as [[ms rest]| | |]; auto. cbn [obind].
    destruct Hm as (Hs2 & c & new & -> & Ec & Hm & Hne). specialize (Hne E). split; auto. exists (cur ts :: c).
    split; [discriminate|]. split. rewrite Et at 1. now rewrite Ec. cbn [denote app]. destruct Hm as [[-> ->]|Hm]; [congruence|].
    now apply g_member.
  - destruct (peek_is T_LPAREN (advance ts)) eqn:E'.
    + pose proof (args_ok (advance ts) Hs1 (proj1 (tis_true _ _) E') ltac:(lia)) as Ha.
      destruct (parse_func_invoke_args rec (advance ts)) as [[a ts2]| | |]; auto. cbn [obind]. destruct Ha as (Hs2 & c & Hc & Ec & Hg).
      split; auto. exists (cur ts :: c). split; [discriminate|]. split. rewrite Et at 1. now rewrite Ec.
      destruct a; cbn [denote]; apply g_call; auto.
    + split; auto. exists [cur ts]. split; [discriminate|]. split; auto. cbn [denote]. now apply g_var.
Qed.

Lemma operand_ok ts : stream ts -> length ts <= N -> sres (G 9) denote ts (parse_operand is_dtype rec ts).
Proof.
  intros Hs HN. unfold parse_operand. cbv zeta.
  assert (forall k, tk (cur ts) = k -> k <> T_EOF -> k <> T_ERROR -> ts = cur ts :: advance ts /\ stream (advance ts) /\ lexeme k (tx (cur ts)) /\ length ts = S (length (advance ts))) as Hst.
  { intros k Hk H1 H2. destruct (stream_step ts Hs) as (Et & Hs1 & Hok & Hl). congruence. split; auto. split; auto. split; auto.
    specialize (Hok ltac:(congruence)). unfold tok_ok in Hok. congruence. }
  destruct (tis (cur ts) T_BOOL) eqn:E1.
  { apply tis_true in E1. destruct (Hst _ E1 ltac:(discriminate) ltac:(discriminate)) as (Et & Hs1 & Hok & Hl).
    split; auto. exists [cur ts]. split; [discriminate|]. split; auto. cbn [denote]. apply lexeme_bool in Hok as [Hx|Hx]; rewrite Hx.
    now apply g_true. now apply g_false. }
  destruct (tis (cur ts) T_STRING) eqn:E2.
  { apply tis_true in E2. destruct (Hst _ E2 ltac:(discriminate) ltac:(discriminate)) as (Et & Hs1 & Hok & Hl).
    split; auto. exists [cur ts]. split; [discriminate|]. split; auto. cbn [denote]. apply lexeme_string in Hok as (s & Hx & _).
    rewrite Hx, strip_quoted. now apply g_str. }
  destruct (tis (cur ts) T_NUMBER) eqn:E3.
  { apply tis_true in E3. destruct (Hst _ E3 ltac:(discriminate) ltac:(discriminate)) as (Et & Hs1 & Hok & Hl).
    destruct (parse_number (tx (cur ts))) as [[v ty]|] eqn:En; [|exact I].
    split; auto. exists [cur ts]. split; [discriminate|]. split; auto. cbn [denote]. now apply g_num. }
  destruct (tis (cur ts) T_AUTO) eqn:E4.
  { apply tis_true in E4. destruct (Hst _ E4 ltac:(discriminate) ltac:(discriminate)) as (Et & Hs1 & Hok & Hl).
    pose proof (expect_spec T_IDENTIFIER (advance ts) Hs1 ltac:(discriminate) ltac:(discriminate)) as Hx.
    destruct (expect T_IDENTIFIER (advance ts)) as [[t ts1]| | |]; auto. cbn [obind]. destruct Hx as (F1 & F2 & F3 & _).
    destruct (valid_identifier is_dtype (tx t)) eqn:Ev; [|exact I]. unfold valid_identifier in Ev. apply andb_true_iff in Ev as [Ev _]. apply negb_true_iff in Ev.
    split; auto. exists [cur ts; t]. split; [discriminate|]. split. rewrite Et at 1. now rewrite F1.
    cbn [denote]. apply g_def; auto. apply (kw_of _ T_AUTO); auto. in_table. }
  destruct (tis (cur ts) T_LPAREN) eqn:E5.
  { apply tis_true in E5. destruct (Hst _ E5 ltac:(discriminate) ltac:(discriminate)) as (Et & Hs1 & Hok & Hl).
    destruct (Hrec (advance ts) Hs1 ltac:(lia)) as [Hr _]. destruct (rec (advance ts)) as [[e ts1]| | |]; try exact Hr. cbn [obind].
    destruct Hr as (Hs2 & c & Hc & Ec & Hg).
    pose proof (expect_spec T_RPAREN ts1 Hs2 ltac:(discriminate) ltac:(discriminate)) as Hx.
    destruct (expect T_RPAREN ts1) as [[t ts2]| | |]; auto. cbn [obind]. destruct Hx as (F1 & F2 & F3 & _).
    split; auto. exists (cur ts :: c ++ [t]). split; [discriminate|]. split. rewrite Et at 1. cbn [app]. now rewrite Ec, F1, <- app_assoc.
    apply g_paren; auto. apply (sym_of _ T_LPAREN); auto; in_table. apply (sym_of _ T_RPAREN); auto; in_table. }
  destruct (tis (cur ts) T_LBRACKET) eqn:E6.
  { apply tis_true in E6. now apply array_ok. }
  destruct (tis (cur ts) T_IDENTIFIER) eqn:E7.
  { apply tis_true in E7. now apply accessor_ok. }
  exact I.
Qed.

Lemma unary_ok ts : stream ts -> length ts <= N -> sres (G 8) denote ts (parse_unary_expr is_dtype rec ts).
Proof.
  intros Hs HN. unfold parse_unary_expr. cbv zeta. destruct (tis (cur ts) T_MINUS || tis (cur ts) T_NOT) eqn:E.
  - assert (exists op, unary_op (tk (cur ts)) = Some op /\ tk (cur ts) <> T_EOF) as (op & Eop & Hne).
    { apply orb_true_iff in E as [E|E]; apply tis_true in E; rewrite E; eexists; split; try reflexivity; discriminate. }
    destruct (stream_step ts Hs Hne) as (Et & Hs1 & Hok & Hl).
    pose proof (operand_ok (advance ts) Hs1 ltac:(lia)) as Ho. destruct (parse_operand is_dtype rec (advance ts)) as [[x ts1]| | |]; auto.
    cbn [obind]. destruct Ho as (Hs2 & c & Hc & Ec & Hg). split; auto. exists (cur ts :: c). split; [discriminate|]. split. rewrite Et at 1. now rewrite Ec.
    rewrite Eop. cbn [denote]. apply g_un; auto. now apply unop_ops.
  - pose proof (operand_ok ts Hs HN) as Ho. destruct (parse_operand is_dtype rec ts) as [[x ts1]| | |]; auto.
    cbn [obind]. destruct Ho as (Hs2 & c & Hc & Ec & Hg). split; auto. exists c. split; auto. split; auto. cbn [denote]. now apply g_un1.
Qed.

Lemma power_ok fuel : forall ts, stream ts -> length ts < fuel -> length ts <= N -> sres (G 7) denote ts (parse_power_expr is_dtype rec fuel ts).
Proof.
  induction fuel as [|fuel IH]; intros ts Hs Hf HN; [lia|]. cbn [parse_power_expr].
  pose proof (unary_ok ts Hs HN) as Ho. destruct (parse_unary_expr is_dtype rec ts) as [[x ts1]| | |]; auto.
  cbn [obind]. destruct Ho as (Hs1 & c & Hc & Ec & Hg). pose proof (f_equal (@length _) Ec) as Hlc. rewrite app_len in Hlc.
  destruct (peek_is T_CARET ts1) eqn:E.
  - unfold peek_is in E. apply tis_true in E. destruct (stream_step ts1 Hs1) as (Et & Hs2 & _ & Hl); [congruence|].
    specialize (IH (advance ts1) Hs2 ltac:(lia) ltac:(lia)). destruct (parse_power_expr is_dtype rec fuel (advance ts1)) as [[y ts2]| | |]; auto.
    cbn [obind]. destruct IH as (Hs3 & c2 & Hc2 & Ec2 & Hg2). split; auto. exists (c ++ cur ts1 :: c2). split. destruct c; discriminate.
    split. rewrite Ec. rewrite Et at 1. rewrite Ec2. now rewrite <- app_assoc. cbn [denote map fold_left fst snd]. apply g_pow; auto.
    apply binop_ops. now rewrite E.
  - split; auto. exists c. split; auto. split; auto. cbn [denote map fold_left]. now apply g_pow1.
Qed.

Lemma loop_ok next n : 3 <= n <= 6 ->
  (forall ts, stream ts -> length ts <= N -> sres (G (S n)) denote ts (next ts)) ->
  forall fuel lhs ts, stream ts -> length ts < fuel -> length ts <= N ->
  match binary_loop next (ops n) fuel lhs ts with
  | Ret (a, rest) => stream rest /\ exists c, ts = c ++ rest /\ Rest n (denote lhs) c (denote a)
  | Err => True
  | _ => False
  end.
Proof.
  intros Hn Hnext. induction fuel as [|fuel IH]; intros lhs ts Hs Hf HN; [lia|]. cbn [binary_loop].
  destruct (ops n (tk (cur ts))) as [op|] eqn:E.
  - assert (tk (cur ts) <> T_EOF) as Hne. { intros Hk. rewrite Hk in E. do 8 (destruct n as [|n]; [discriminate E|]). discriminate E. }
    destruct (stream_step ts Hs Hne) as (Et & Hs1 & _ & Hl).
    pose proof (Hnext (advance ts) Hs1 ltac:(lia)) as Ho. destruct (next (advance ts)) as [[r ts1]| | |]; auto. cbn [obind].
    destruct Ho as (Hs2 & c & Hc & Ec & Hg). pose proof (f_equal (@length _) Ec) as Hlc. rewrite app_len in Hlc.
    specialize (IH (O_bin lhs [(op, r)] (tp (cur ts))) ts1 Hs2 ltac:(lia) ltac:(lia)).
    destruct (binary_loop next (ops n) fuel (O_bin lhs [(op, r)] (tp (cur ts))) ts1) as [[a rest]| | |]; auto.
    destruct IH as (Hs3 & c2 & Ec2 & Hr). split; auto. exists (cur ts :: c ++ c2). split. rewrite Et at 1. cbn [app]. now rewrite Ec, Ec2, app_assoc.
    eapply r_cons; [|exact Hg|exact Hr]. now apply binop_ops.
  - split; auto. exists []. split; auto. constructor.
Qed.

Lemma binary_ok next n : 3 <= n <= 6 ->
  (forall ts, stream ts -> length ts <= N -> sres (G (S n)) denote ts (next ts)) ->
  forall ts, stream ts -> length ts <= N -> sres (G n) denote ts (parse_binary_left next (ops n) ts).
Proof.
  intros Hn Hnext ts Hs HN. unfold parse_binary_left. pose proof (Hnext ts Hs HN) as Ho. destruct (next ts) as [[l ts1]| | |]; auto. cbn [obind].
  destruct Ho as (Hs2 & c & Hc & Ec & Hg). pose proof (f_equal (@length _) Ec) as Hlc. rewrite app_len in Hlc.
  pose proof (loop_ok next n Hn Hnext (S (length ts1)) l ts1 Hs2 ltac:(lia) ltac:(lia)) as Hl.
  destruct (binary_loop next (ops n) (S (length ts1)) l ts1) as [[a rest]| | |]; auto.
  destruct Hl as (Hs3 & c2 & Ec2 & Hr). split; auto. exists (c ++ c2). split. destruct c; [congruence|discriminate].
  split. now rewrite Ec, Ec2, app_assoc. eapply g_left; eauto.
Qed.

Lemma logic_ok ts : stream ts -> length ts <= N -> sres (G 3) denote ts (parse_logic_expr is_dtype rec ts).
Proof.
  revert ts. apply (binary_ok (parse_cmp_expr is_dtype rec) 3); [lia|].
  apply (binary_ok (parse_additive_expr is_dtype rec) 4); [lia|].
  apply (binary_ok (parse_multiplicative_expr is_dtype rec) 5); [lia|].
  apply (binary_ok (fun ts => parse_power_expr is_dtype rec (S (length ts)) ts) 6); [lia|].
  intros ts Hs HN. apply power_ok; auto; lia.
Qed.

Lemma assign_ok ts : stream ts -> length ts <= N -> r1 ts (parse_assign is_dtype rec ts).
Proof.
  intros Hs HN. unfold parse_assign. pose proof (logic_ok ts Hs HN) as Ho. destruct (parse_logic_expr is_dtype rec ts) as [[l ts1]| | |]; try contradiction; try (split; exact I).
  cbn [obind]. destruct Ho as (Hs1 & c & Hc & Ec & Hg). pose proof (f_equal (@length _) Ec) as Hlc. rewrite app_len in Hlc.
  assert (length c <> 0) by (destruct c; [congruence|simpl; lia]).
  destruct (peek_is T_QUESTION ts1) eqn:E.
  - unfold peek_is in E. apply tis_true in E. destruct (stream_step ts1 Hs1) as (Et & Hs2 & _ & Hl); [congruence|].
    destruct (Hrec (advance ts1) Hs2 ltac:(lia)) as [Hr _]. destruct (rec (advance ts1)) as [[te ts2]| | |]; try contradiction; try (split; exact I). cbn [obind].
    destruct Hr as (Hs3 & c2 & Hc2 & Ec2 & Hg2). pose proof (f_equal (@length _) Ec2) as Hlc2. rewrite app_len in Hlc2.
    pose proof (expect_spec T_COLON ts2 Hs3 ltac:(discriminate) ltac:(discriminate)) as Hx.
    destruct (expect T_COLON ts2) as [[t ts3]| | |]; try contradiction; try (split; exact I). cbn [obind]. destruct Hx as (E1 & E2 & E3 & _).
    rewrite E1 in Hlc2. cbn [length] in Hlc2.
    destruct (Hrec ts3 E3 ltac:(lia)) as [Hr Hno]. destruct (rec ts3) as [[fe ts4]| | |]; try contradiction; try (split; exact I). cbn [obind]. rewrite Hno.
    destruct Hr as (Hs4 & c4 & Hc4 & Ec4 & Hg4). split; auto. split; auto. exists (c ++ cur ts1 :: c2 ++ t :: c4).
    split. destruct c; discriminate. split. rewrite Ec. rewrite Et at 1. rewrite Ec2, E1, Ec4. rewrite <- app_assoc. cbn [app]. now rewrite <- app_assoc.
    cbn [denote map fold_left]. apply g_cond; auto. apply (sym_of _ T_QUESTION); auto; in_table. apply (sym_of _ T_COLON); auto; in_table.
  - destruct (assign_op (tk (cur ts1))) as [op|] eqn:Ea.
    + assert (tk (cur ts1) <> T_EOF) as Hne. { intros Hk. rewrite Hk in Ea. discriminate. }
      destruct (stream_step ts1 Hs1 Hne) as (Et & Hs2 & _ & Hl).
      destruct (Hrec (advance ts1) Hs2 ltac:(lia)) as [Hr Hno]. destruct (rec (advance ts1)) as [[te ts2]| | |]; try contradiction; try (split; exact I). cbn [obind].
      destruct Hr as (Hs3 & c2 & Hc2 & Ec2 & Hg2). split; auto. split; auto. exists (c ++ cur ts1 :: c2). split. destruct c; discriminate.
      split. rewrite Ec. rewrite Et at 1. rewrite Ec2. now rewrite <- app_assoc. cbn [denote map fold_left fst snd]. apply g_assign; auto. now apply binop_ops.
    + split; auto. split; auto. exists c. split; auto. split; auto. now apply g_expr.
Qed.
End E.

Lemma parse_expression_ok fuel : forall ts, stream ts -> length ts <= fuel -> r1 ts (parse_expression is_dtype fuel ts).
Proof.
  induction fuel as [|fuel IH]; intros ts Hs Hf. { apply stream_len in Hs. lia. }
  cbn [parse_expression]. apply (assign_ok _ (S fuel)); auto. intros ts' Hs' Hl. apply IH; auto. lia.
Qed.
Lemma parse_expr_ok ts : stream ts -> sres (G 1) denote ts (parse_expr is_dtype ts).
Proof. intros Hs. apply (parse_expression_ok (length ts) ts); auto. Qed.
End S.
