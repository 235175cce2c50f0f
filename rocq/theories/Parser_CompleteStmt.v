(** Completeness for statements, functions and programs. *)
From Coq Require Import Ascii String List Bool Arith ZArith Lia.
Import ListNotations.
From Verif Require Import Base Lexer_Model Lexer_Spec Lexer_Proofs Op_Model Number_Model Parser_Model Parser_Spec Parser_Lemmas Parser_Sound Parser_SoundStmt Parser_Complete.

Scheme Stmt_mind := Minimality for Stmt Sort Prop
  with Choice_mind := Minimality for Choice Sort Prop
  with Elifs_mind := Minimality for Elifs Sort Prop
  with Else_mind := Minimality for Else Sort Prop
  with Block_mind := Minimality for Block Sort Prop
  with Stmts_mind := Minimality for Stmts Sort Prop.
Combined Scheme stmt_ind from Stmt_mind, Choice_mind, Elifs_mind, Else_mind, Block_mind, Stmts_mind.

Section C.
Variable is_dtype : text -> bool.
Notation G := (G is_dtype).
Notation Stmt := (Stmt is_dtype).
Notation Stmts := (Stmts is_dtype).
Notation Block := (Block is_dtype).
Notation Choice := (Choice is_dtype).
Notation Elifs := (Elifs is_dtype).
Notation Else := (Else is_dtype).

Ltac symk H k := let E := fresh "K" in assert (E := sym_kind _ _ H k ltac:(in_table)).
Ltac kwk H k := let E := fresh "K" in assert (E := kw_kind _ _ H k ltac:(in_table)).
Ltac foralls := repeat match goal with
  | H : Forall _ (_ :: _) |- _ => inversion H; subst; clear H
  | H : Forall _ (_ ++ _) |- _ => apply Forall_app in H as [? ?]
  end.
Ltac lens := cbn [length] in *; repeat (rewrite !app_length in *; cbn [length] in *).

Definition psts := parse_statements is_dtype.
Definition pair_denote (x : operand * list stmt) : expr * list st := match x with (c, b) => (denote c, map denote_stmt b) end.

Definition QS (c : list token) (s : st) : Prop :=
  forall f rest, Forall tok_ok c -> stream rest -> tk (cur rest) <> T_ELIF -> tk (cur rest) <> T_ELSE -> length (c ++ rest) <= f ->
    exists a, denote_stmt a = s /\ parse_statement is_dtype (psts f) (c ++ rest) = Ret (Some a, rest).
Definition QC (c : list token) (e : expr) (b : list st) : Prop :=
  forall f rest, Forall tok_ok c -> stream rest -> length (c ++ rest) <= f ->
    exists a, pair_denote a = (e, b) /\ parse_choice_statement is_dtype (psts f) (c ++ rest) = Ret (a, rest).
Definition QE (c : list token) (es : list (expr * list st)) : Prop :=
  forall f rest fuel acc, Forall tok_ok c -> stream rest -> tk (cur rest) <> T_ELIF -> length (c ++ rest) <= f -> length (c ++ rest) < fuel ->
    exists new, map pair_denote new = es /\ parse_elifs is_dtype (psts f) fuel acc (c ++ rest) = Ret (acc ++ new, rest).
Definition QB (c : list token) (ss : list st) : Prop :=
  forall f rest, Forall tok_ok c -> stream rest -> length (c ++ rest) <= f ->
    exists a, map denote_stmt a = ss /\ parse_block (psts f) (c ++ rest) = Ret (a, rest).
Definition QL (c : list token) (el : option (list st)) : Prop :=
  match el with
  | None => c = []
  | Some ss => exists k c', c = k :: c' /\ tk k = T_ELSE /\ QB c' ss
  end.
Definition QSs (c : list token) (ss : list st) : Prop :=
  forall f rest, Forall tok_ok c -> stream rest -> tk (cur rest) = T_RBRACE -> length (c ++ rest) < f ->
    exists a, map denote_stmt a = ss /\ psts f (c ++ rest) = Ret (a, rest).

Lemma Stmt_starts c s : Stmt c s -> exists t c', c = t :: c' /\ tk t <> T_ELIF /\ tk t <> T_ELSE.
Proof.
  destruct 1; try (eexists; eexists; split; [reflexivity|];
    first [kwk H T_CONTINUE|kwk H T_BREAK|kwk H T_RETURN|kwk H T_WHILE|kwk H T_IF]; rewrite K; split; discriminate).
  apply G_starts in H as ((t' & c' & -> & H) & _). exists t', (c' ++ [t]). split; auto. split; intros K; rewrite K in H; discriminate.
Qed.

Lemma complete_stmt :
  (forall c s, Stmt c s -> QS c s) /\ (forall c e b, Choice c e b -> QC c e b) /\ (forall c es, Elifs c es -> QE c es) /\
  (forall c el, Else c el -> QL c el) /\ (forall c ss, Block c ss -> QB c ss) /\ (forall c ss, Stmts c ss -> QSs c ss).
Proof.
  apply stmt_ind.
  - intros k t Hk Ht f rest Hok Hs H1 H2 Hl. kwk Hk T_CONTINUE. symk Ht T_SEMICOLON. exists (S_continue (tp k)). split; auto.
    unfold parse_statement. cbn [app cur hd]. unfold tis at 1, tkind_eqb. rewrite K. destruct rest as [|u rest]; [now apply stream_nonnil in Hs|]. cbn. unfold peek_is, tis, tkind_eqb. cbn [cur hd]. now rewrite K0.
  - intros k t Hk Ht f rest Hok Hs H1 H2 Hl. kwk Hk T_BREAK. symk Ht T_SEMICOLON. exists (S_break (tp k)). split; auto.
    unfold parse_statement. cbn [app cur hd]. unfold tis at 1 2, tkind_eqb. rewrite K. destruct rest as [|u rest]; [now apply stream_nonnil in Hs|]. cbn. unfold peek_is, tis, tkind_eqb. cbn [cur hd]. now rewrite K0.
  - intros k t Hk Ht f rest Hok Hs H1 H2 Hl. kwk Hk T_RETURN. symk Ht T_SEMICOLON. exists (S_return None). split; auto.
    unfold parse_statement. cbn [app cur hd]. unfold tis at 1 2 3, tkind_eqb. rewrite K. cbn. unfold parse_return_statement. rewrite advance_cons by discriminate. cbv zeta.
    rewrite peek_yes by exact K0. cbn [obind]. rewrite expect_hit; [reflexivity|now apply stream_nonnil|exact K0].
  - intros k ts t e Hk Hg Ht f rest Hok Hs H1 H2 Hl. foralls. kwk Hk T_RETURN. symk Ht T_SEMICOLON.
    cbn [app]. rewrite <- app_assoc. cbn [app].
    destruct (parse_expr_complete is_dtype ts e (t :: rest) Hg ltac:(auto)) as (a & Ea & Ha). { apply (stream_app [t]); auto. } { unfold follow. cbn [cur hd]. rewrite K0. cbn. lia. }
    exists (S_return (Some a)). split. cbn. now rewrite Ea.
    unfold parse_statement. cbn [app cur hd]. unfold tis at 1 2 3, tkind_eqb. rewrite K. cbn. unfold parse_return_statement. rewrite advance_cons by (now apply nonnil_app; apply (stream_app [t]); auto).
    cbv zeta. apply G_starts in Hg as ((u & c' & -> & Hu) & _).
    rewrite peek_no. 2: { cbn [app cur hd]. intros K'. rewrite K' in Hu. discriminate. }
    rewrite Ha. cbn [obind]. rewrite expect_hit; [reflexivity|now apply stream_nonnil|exact K0].
  - intros ts t e Hg Ht f rest Hok Hs H1 H2 Hl. foralls. symk Ht T_SEMICOLON. rewrite <- app_assoc. cbn [app].
    destruct (parse_expr_complete is_dtype ts e (t :: rest) Hg ltac:(auto)) as (a & Ea & Ha). { apply (stream_app [t]); auto. } { unfold follow. cbn [cur hd]. rewrite K. cbn. lia. }
    exists (S_expr a). split. cbn. now rewrite Ea. apply G_starts in Hg as ((u & c' & -> & Hu) & _).
    unfold parse_statement, parse_expr_statement. rewrite Ha. cbn [app cur hd obind]. rewrite expect_hit; [|now apply stream_nonnil|exact K]. cbn [obind]. rewrite Hu.
    unfold tis, tkind_eqb. destruct (tk u); try discriminate Hu; reflexivity.
  - intros k ts c b Hk Hc IH f rest Hok Hs H1 H2 Hl. foralls. kwk Hk T_WHILE. cbn [app] in *. lens.
    destruct (IH f rest ltac:(auto) Hs ltac:(lens; lia)) as ([a1 a2] & Ea & Ha). cbn in Ea. injection Ea as E1 E2.
    exists (S_while a1 a2). split. cbn. now rewrite E1, E2.
    unfold parse_statement. cbn [app cur hd]. unfold tis at 1 2 3 4, tkind_eqb. rewrite K. cbn. unfold parse_while_statement. rewrite advance_cons by (now apply nonnil_app).
    rewrite Ha. reflexivity.
  - intros k ts1 ts2 ts3 c b es el Hk Hc IHc He IHe Hel IHel f rest Hok Hs H1 H2 Hl. foralls. kwk Hk T_IF. cbn [app] in *. rewrite <- !app_assoc in *. lens.
    assert (stream (ts3 ++ rest)) as S3 by (apply stream_app; auto). assert (stream (ts2 ++ ts3 ++ rest)) as S2 by (apply stream_app; auto).
    destruct (IHc f (ts2 ++ ts3 ++ rest) ltac:(auto) S2 ltac:(lens; lia)) as ([a1 a2] & Ea & Ha). cbn in Ea. injection Ea as E1 E2.
    assert (tk (cur (ts3 ++ rest)) <> T_ELIF) as N1. { destruct el; [|now rewrite IHel]. destruct IHel as (kk & c' & -> & Kk & _). cbn [app cur hd]. congruence. }
    destruct (IHe f (ts3 ++ rest) (S (length (ts2 ++ ts3 ++ rest))) [] ltac:(auto) S3 N1 ltac:(lens; lia) ltac:(lia)) as (new & En & Hn). cbn [app] in Hn.
    assert (parse_statement is_dtype (psts f) (k :: ts1 ++ ts2 ++ ts3 ++ rest) = do! (s, ts1) <- parse_ifelse_statement is_dtype (psts f) (k :: ts1 ++ ts2 ++ ts3 ++ rest); Ret (Some s, ts1)) as ->.
    { unfold parse_statement. cbn [app cur hd]. unfold tis at 1 2 3 4 5, tkind_eqb. rewrite K. reflexivity. }
    unfold parse_ifelse_statement. rewrite advance_cons by (now apply nonnil_app). rewrite Ha. cbn [obind]. rewrite Hn. cbn [obind].
    destruct el as [ss|].
    + destruct IHel as (kk & c' & -> & Kk & IHb). foralls. cbn [app] in *. destruct (IHb f rest ltac:(auto) Hs ltac:(lens; lia)) as (bb & Eb & Hb).
      rewrite peek_yes by exact Kk. rewrite advance_cons by (now apply nonnil_app). rewrite Hb. cbn [obind fst snd].
      exists (S_ifelse a1 a2 new (Some bb)). split; auto. cbn. now subst.
    + rewrite IHel. cbn [app]. rewrite peek_no by auto. cbn [obind fst snd]. exists (S_ifelse a1 a2 new None). split; auto. cbn. now subst.
  - intros l ts r ts' e b Hl Hg Hr Hb IH f rest Hok Hs Hlen. foralls. symk Hl T_LPAREN. symk Hr T_RPAREN. cbn [app] in *. rewrite <- app_assoc in *. cbn [app] in *. lens.
    assert (stream (ts' ++ rest)) as S1 by (apply stream_app; auto). assert (stream (r :: ts' ++ rest)) as S2 by (apply (stream_app [r]); auto).
    destruct (parse_expr_complete is_dtype ts e (r :: ts' ++ rest) Hg ltac:(auto) S2) as (a & Ea & Ha). { unfold follow. cbn [cur hd]. rewrite K0. cbn. lia. }
    destruct (IH f rest ltac:(auto) Hs ltac:(lens; lia)) as (bb & Eb & Hbb). exists (a, bb). split. cbn. now rewrite Ea, Eb.
    unfold parse_choice_statement. rewrite expect_hit; [|now apply nonnil_app|exact K]. cbn [obind]. rewrite Ha. cbn [obind].
    rewrite expect_hit; [|now apply stream_nonnil|exact K0]. cbn [obind]. rewrite Hbb. reflexivity.
  - intros f rest fuel acc Hok Hs H1 Hl Hf. exists []. split; auto. destruct fuel; [lia|]. cbn [app parse_elifs]. rewrite peek_no by auto. now rewrite app_nil_r.
  - intros k ts c b ts' es Hk Hc IHc He IHe f rest fuel acc Hok Hs H1 Hl Hf. foralls. kwk Hk T_ELIF. cbn [app] in *. rewrite <- app_assoc in *. lens.
    destruct fuel as [|fuel]; [lia|]. assert (stream (ts' ++ rest)) as S1 by (apply stream_app; auto).
    destruct (IHc f (ts' ++ rest) ltac:(auto) S1 ltac:(lens; lia)) as (a & Ea & Ha).
    destruct (IHe f rest fuel (acc ++ [a]) ltac:(auto) Hs H1 ltac:(lens; lia) ltac:(lens; lia)) as (new & En & Hn).
    exists (a :: new). split. cbn [map]. now rewrite Ea, En. cbn [parse_elifs]. rewrite peek_yes by exact K. rewrite advance_cons by (now apply nonnil_app). rewrite Ha. cbn [obind].
    rewrite Hn. now rewrite <- app_assoc.
  - reflexivity.
  - intros k ts b Hk Hb IH. kwk Hk T_ELSE. exists k, ts. auto.
  - intros l ts r ss Hl Hss IH Hr f rest Hok Hs Hlen. foralls. symk Hl T_LBRACE. symk Hr T_RBRACE. cbn [app] in *. rewrite <- app_assoc in *. cbn [app] in *. lens.
    assert (stream (r :: rest)) as S1 by (apply (stream_app [r]); auto).
    destruct (IH f (r :: rest) ltac:(auto) S1 K0 ltac:(lens; lia)) as (a & Ea & Ha). exists a. split; auto.
    unfold parse_block. rewrite expect_hit; [|now apply nonnil_app|exact K]. cbn [obind]. rewrite Ha. cbn [obind]. rewrite expect_hit; [reflexivity|now apply stream_nonnil|exact K0].
  - intros f rest Hok Hs Hr Hl. exists []. split; auto. destruct f; [lia|]. unfold psts. cbn [app parse_statements]. unfold parse_statement, tis, tkind_eqb. now rewrite Hr.
  - intros ts s ts' ss Hst IH Hss IHs f rest Hok Hs Hr Hl. foralls. rewrite <- app_assoc in *. destruct f as [|f]; [lia|].
    assert (stream (ts' ++ rest)) as S1 by (apply stream_app; auto).
    assert (tk (cur (ts' ++ rest)) <> T_ELIF /\ tk (cur (ts' ++ rest)) <> T_ELSE) as [N1 N2].
    { destruct Hss as [|ts1 s1 ts2 ss2 H1 H2]. cbn [app]. rewrite Hr. split; discriminate. apply Stmt_starts in H1 as (t & c' & -> & H1). exact H1. }
    destruct (IH f (ts' ++ rest) ltac:(auto) S1 N1 N2 ltac:(lia)) as (a & Ea & Ha).
    destruct (Stmt_starts _ _ Hst) as (u & c' & Eu & _). assert (length (ts' ++ rest) < f) as L1. { rewrite Eu in Hl. lens. lia. }
    destruct (IHs f rest ltac:(auto) Hs Hr L1) as (b & Eb & Hb). exists (a :: b). split. cbn. now rewrite Ea, Eb.
    unfold psts in *. cbn [parse_statements]. rewrite Ha. cbn [obind]. now rewrite Hb.
Qed.

Lemma block_complete c ss rest : Block c ss -> Forall tok_ok c -> stream rest ->
  exists a, map denote_stmt a = ss /\ parse_block (fun ts => parse_statements is_dtype (S (length ts)) ts) (c ++ rest) = Ret (a, rest).
Proof.
  intros Hb Hok Hs. destruct Hb as [l ts r ss Hl Hss Hr]. foralls. symk Hl T_LBRACE. symk Hr T_RBRACE. cbn [app]. rewrite <- app_assoc. cbn [app].
  assert (stream (r :: rest)) as S1 by (apply (stream_app [r]); auto).
  destruct complete_stmt as (_ & _ & _ & _ & _ & HQ). destruct (HQ _ _ Hss (S (length (ts ++ r :: rest))) (r :: rest) ltac:(auto) S1 K0 ltac:(lia)) as (a & Ea & Ha). exists a. split; auto.
  unfold parse_block. rewrite expect_hit; [|now apply nonnil_app|exact K]. cbn [obind]. unfold psts in Ha. rewrite Ha. cbn [obind]. rewrite expect_hit; [reflexivity|now apply stream_nonnil|exact K0].
Qed.

Section F.
Context {D : Type}.
Variable find_dtype : text -> option D.
Notation TypedName := (TypedName is_dtype find_dtype).

Lemma comma_text t : tok_ok t -> tk t = T_COMMA -> tx t = lit ",".
Proof.
  unfold tok_ok. intros H E. rewrite E in H. inversion H as [s k Hk|s k Hk| | |]; subst.
  - simpl in Hk. repeat (destruct Hk as [Hk|Hk]; [discriminate|]). contradiction.
  - simpl in Hk. repeat (destruct Hk as [Hk|Hk]; [first [discriminate Hk|injection Hk as <-; reflexivity]|]). contradiction.
Qed.

Lemma type_args_complete fuel : forall c rest name, Forall tok_ok c -> stream rest -> tk (cur rest) = T_GT -> length c < fuel ->
  Forall (fun x => ~ is_sym ">" x /\ tk x <> T_EOF /\ tk x <> T_ERROR) c ->
  type_args fuel name (c ++ rest) = Ret (name ++ concat (map tx c), rest).
Proof.
  induction fuel as [|fuel IH]; intros c rest name Hok Hs Hr Hf Hc; [lia|]. cbn [type_args]. destruct c as [|t c].
  - cbn [app map concat]. rewrite peek_yes by exact Hr. cbn. now rewrite app_nil_r.
  - foralls. match goal with H : _ /\ _ /\ _ |- _ => destruct H as (N1 & N2 & N3) end. cbn [app].
    assert (tk t <> T_GT) as N0. { intros K. apply N1. apply (sym_of _ T_GT); auto; in_table. }
    rewrite !peek_no by assumption. cbn [negb andb cur hd]. rewrite advance_cons by (now apply nonnil_app). cbv zeta. cbn [length] in Hf.
    destruct (peek_is T_COMMA (c ++ rest)) eqn:E.
    + unfold peek_is in E. apply tis_true in E. destruct c as [|u c]. { cbn [app] in E. congruence. } foralls. cbn [app cur hd] in *.
      rewrite advance_cons by (now apply nonnil_app). rewrite IH; auto. 2: { cbn [length] in Hf. lia. }
      cbn [map concat]. rewrite (comma_text u) by auto. now rewrite <- !app_assoc.
    + rewrite IH; auto; [|lia]. cbn [map concat]. now rewrite <- app_assoc.
Qed.

Lemma type_name_complete c n rest : TypeName c n -> Forall tok_ok c -> stream rest -> tk (cur rest) <> T_LT -> read_type_name (c ++ rest) = Ret (n, rest).
Proof.
  intros H Hok Hs Hr. destruct H as [t|t l ts r Hl Hts Hgt]; foralls.
  - cbn [app]. unfold read_type_name. rewrite advance_cons by now apply stream_nonnil. cbv zeta. now rewrite peek_no.
  - symk Hl T_LT. symk Hgt T_GT. cbn [app]. rewrite <- app_assoc. cbn [app]. unfold read_type_name. rewrite advance_cons by discriminate. cbv zeta. rewrite peek_yes by exact K.
    assert (stream (r :: rest)) as S1 by (apply (stream_app [r]); auto).
    rewrite advance_cons by (now apply nonnil_app). rewrite type_args_complete; auto. 2: { lens. lia. }
    cbn [obind cur hd]. rewrite peek_yes by exact K0. rewrite advance_cons by now apply stream_nonnil. now rewrite <- !app_assoc.
Qed.

Lemma typed_name_complete c d n rest : TypedName c d n -> Forall tok_ok c -> stream rest -> parse_typed_name is_dtype find_dtype (c ++ rest) = Ret ((d, n), rest).
Proof.
  intros H Hok Hs. destruct H as [ts tn d t Ht Hd Hk Hdt]. foralls. rewrite <- app_assoc. cbn [app]. unfold parse_typed_name.
  rewrite (type_name_complete ts tn (t :: rest)); auto. 2: { apply (stream_app [t]); auto. } 2: { cbn [cur hd]. congruence. }
  cbn [obind]. rewrite Hd. rewrite expect_hit; [|now apply stream_nonnil|auto]. cbn [obind]. now rewrite valid_name.
Qed.

Lemma args_complete c l : FuncArgs is_dtype find_dtype c l -> Forall tok_ok c -> forall rest, stream rest -> tk (cur rest) = T_RPAREN ->
  exists a new ts1, parse_func_arg is_dtype find_dtype (c ++ rest) = Ret (a, ts1) /\
    (forall fuel acc, length ts1 < fuel -> more_args is_dtype find_dtype fuel acc ts1 = Ret (acc ++ new, rest)) /\
    map (fun a => (a_type a, a_name a)) (a :: new) = l.
Proof.
  induction 1 as [ts d n Ht|ts d n c ts' l Ht Hc Hl IH]; intros Hok rest Hs Hr.
  - exists (Arg d n), [], rest. unfold parse_func_arg. rewrite (typed_name_complete ts d n) by auto. split; auto. split; auto.
    intros fuel acc Hf. destruct fuel; [lia|]. cbn [more_args]. rewrite peek_no by congruence. now rewrite app_nil_r.
  - foralls. symk Hc T_COMMA. rewrite <- app_assoc. cbn [app]. destruct (IH ltac:(auto) rest Hs Hr) as (a & new & ts1 & Ha & Hm & Em).
    assert (stream (ts' ++ rest)) as S0 by (apply stream_app; auto). assert (stream (c :: ts' ++ rest)) as S1 by (apply (stream_app [c]); auto).
    exists (Arg d n), (a :: new), (c :: ts' ++ rest). unfold parse_func_arg at 1. rewrite (typed_name_complete ts d n) by auto. split; auto. split.
    + intros fuel acc Hf. destruct fuel as [|fuel]; [lia|]. cbn [more_args]. rewrite peek_yes by exact K. rewrite advance_cons by (now apply nonnil_app).
      rewrite Ha. cbn [obind]. rewrite Hm. now rewrite <- app_assoc.
      pose proof (func_arg_ok is_dtype find_dtype (ts' ++ rest) S0) as Hx. rewrite Ha in Hx. destruct Hx as (_ & cc & Hcc & Ecc & _).
      assert (length (ts' ++ rest) = length cc + length ts1) by now rewrite Ecc, app_length. lens. lia.
    + cbn [map a_type a_name] in *. now rewrite Em.
Qed.

Lemma TypedName_starts c d n : TypedName c d n -> c <> [].
Proof. destruct 1. destruct ts; discriminate. Qed.

(** No type name begins with a closing parenthesis. *)
Hypothesis Hparen : forall n, find_dtype (lit ")" ++ n) = None.
Lemma rparen_text t : tok_ok t -> tk t = T_RPAREN -> tx t = lit ")".
Proof.
  unfold tok_ok. intros H E. rewrite E in H. inversion H as [s k Hk|s k Hk| | |]; subst.
  - simpl in Hk. repeat (destruct Hk as [Hk|Hk]; [discriminate|]). contradiction.
  - simpl in Hk. repeat (destruct Hk as [Hk|Hk]; [first [discriminate Hk|injection Hk as <-; reflexivity]|]). contradiction.
Qed.
Lemma TypeName_cur c n rest : TypeName c n -> Forall tok_ok c -> find_dtype n <> None -> tk (cur (c ++ rest)) <> T_RPAREN.
Proof.
  intros H Hok Hn E. apply Hn. destruct H as [t|t l ts r Hl Hts Hgt]; foralls; cbn [app cur hd] in E; rewrite (rparen_text t) by auto.
  - apply (Hparen []).
  - apply Hparen.
Qed.
Lemma TypedName_cur c d n rest : TypedName c d n -> Forall tok_ok c -> tk (cur (c ++ rest)) <> T_RPAREN.
Proof. intros H Hok. destruct H as [ts tn d t Ht Hd Hk Hdt]. foralls. rewrite <- app_assoc. eapply TypeName_cur; eauto. congruence. Qed.
Lemma FuncArgs_starts c l rest : FuncArgs is_dtype find_dtype c l -> Forall tok_ok c -> tk (cur (c ++ rest)) <> T_RPAREN.
Proof. destruct 1; intros; foralls; try rewrite <- app_assoc; eapply TypedName_cur; eauto. Qed.

Lemma func_complete c g rest pos : FuncG is_dtype find_dtype c g -> Forall tok_ok c -> stream rest ->
  exists f, denote_func f = g /\ f_pos f = pos /\ parse_func is_dtype find_dtype pos (c ++ rest) = Ret (f, rest).
Proof.
  intros H Hok Hs. destruct H as [ts d n l r ts' b Ht Hl Hr Hb|ts d n l ta args r ts' b Ht Hl Ha Hr Hb]; foralls; symk Hl T_LPAREN; symk Hr T_RPAREN.
  - rewrite <- app_assoc. cbn [app]. assert (stream (ts' ++ rest)) as S1 by (apply stream_app; auto). assert (stream (r :: ts' ++ rest)) as S2 by (apply (stream_app [r]); auto).
    assert (stream (l :: r :: ts' ++ rest)) as S3 by (apply (stream_app [l; r]); auto).
    destruct (block_complete ts' b rest Hb ltac:(auto) Hs) as (bb & Eb & Hbb).
    exists (Func d n None bb pos). split. unfold denote_func. cbn. now rewrite Eb. split; auto.
    unfold parse_func. rewrite (typed_name_complete ts d n) by auto. cbn [obind]. rewrite expect_hit; [|discriminate|exact K]. cbn [obind]. rewrite peek_yes by exact K0. cbn [obind].
    rewrite expect_hit; [|now apply nonnil_app|exact K0]. cbn [obind]. now rewrite Hbb.
  - rewrite <- app_assoc. cbn [app]. rewrite <- app_assoc. cbn [app].
    assert (stream (ts' ++ rest)) as S1 by (apply stream_app; auto). assert (stream (r :: ts' ++ rest)) as S2 by (apply (stream_app [r]); auto).
    assert (stream (ta ++ r :: ts' ++ rest)) as S3 by (apply stream_app; auto). assert (stream (l :: ta ++ r :: ts' ++ rest)) as S4 by (apply (stream_app [l]); auto).
    destruct (args_complete ta args Ha ltac:(auto) (r :: ts' ++ rest) S2 K0) as (a & new & ts1 & Ea & Hm & Em).
    destruct (block_complete ts' b rest Hb ltac:(auto) Hs) as (bb & Eb & Hbb).
    exists (Func d n (Some (a :: new)) bb pos). split. unfold denote_func. cbn [f_ret f_name Parser_Model.f_args f_body]. now rewrite Eb, Em. split; auto.
    unfold parse_func. rewrite (typed_name_complete ts d n) by auto. cbn [obind]. rewrite expect_hit; [|now apply nonnil_app|exact K]. cbn [obind].
    rewrite peek_no. 2: { intros E. eapply FuncArgs_starts; eauto. }
    rewrite Ea. cbn [obind]. rewrite Hm by lia. cbn [obind app]. rewrite expect_hit; [|now apply nonnil_app|exact K0]. cbn [obind]. now rewrite Hbb.
Qed.

Lemma program_complete c gs : Program is_dtype find_dtype c gs -> Forall tok_ok c -> forall e fuel, tk e = T_EOF -> length c < fuel ->
  exists fs, map denote_func fs = gs /\ parse_funcs is_dtype find_dtype fuel (c ++ [e]) = Ret fs.
Proof.
  induction 1 as [|ts g ts' gs Hg Hp IH]; intros Hok e fuel He Hf.
  - exists []. split; auto. destruct fuel; [lia|]. cbn [app parse_funcs]. now rewrite peek_yes.
  - foralls. destruct fuel as [|fuel]; [lia|]. assert (ts <> []) as Hne. { destruct Hg as [? ? ? ? ? ? ? HT|? ? ? ? ? ? ? ? ? HT]; apply TypedName_starts in HT; destruct ts; try congruence; discriminate. }
    assert (stream (ts' ++ [e])) as S1. { exists ts', e. split; auto. split; auto. eapply Forall_impl; [|eassumption]. auto. }
    rewrite <- app_assoc.
    destruct (func_complete ts g (ts' ++ [e]) (tp (cur (ts ++ ts' ++ [e])) + length (tx (cur (ts ++ ts' ++ [e])))) Hg ltac:(auto) S1) as (f & Ef & _ & Hpf).
    assert (length ts <> 0) by (destruct ts; [congruence|discriminate]). lens.
    destruct (IH ltac:(auto) e fuel He ltac:(lia)) as (fs & Efs & Hfs). exists (f :: fs). split. cbn. now rewrite Ef, Efs.
    cbn [parse_funcs]. rewrite peek_no. 2: { destruct ts as [|t ts]; [congruence|]. foralls. cbn [app cur hd]. apply tok_not_eof. auto. }
    rewrite Hpf. cbn [obind]. now rewrite Hfs.
Qed.
End F.
End C.
