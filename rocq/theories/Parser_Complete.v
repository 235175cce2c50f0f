(** Completeness: every derivation of the grammar is found by the parser, provided the next token does not
    go on the phrase. *)
From Coq Require Import Ascii String List Bool Arith ZArith Lia.
Import ListNotations.
From Verif Require Import Base Lexer_Model Lexer_Spec Lexer_Proofs Op_Model Number_Model Parser_Model Parser_Spec Parser_Lemmas Parser_Sound.

Definition follow (n : nat) (rest : toks) : Prop := goes_on (tk (cur rest)) < n.

Lemma cur_app t c rest : cur ((t :: c) ++ rest) = t.
Proof. reflexivity. Qed.
Lemma advance_app t c rest : stream rest -> advance ((t :: c) ++ rest) = c ++ rest.
Proof. intros H. cbn [app]. apply advance_cons. apply stream_nonnil in H. destruct c; [auto|discriminate]. Qed.
Lemma expect_hit k t ts : ts <> [] -> tk t = k -> expect k (t :: ts) = Ret (t, ts).
Proof. intros H E. unfold expect, peek_is. cbn [cur hd]. replace (tis t k) with true. now rewrite advance_cons. symmetry. now apply tis_true. Qed.
Lemma peek_no k ts : tk (cur ts) <> k -> peek_is k ts = false.
Proof. intros H. now apply tis_false. Qed.
Lemma peek_yes k ts : tk (cur ts) = k -> peek_is k ts = true.
Proof. intros H. now apply tis_true. Qed.

Scheme G_mind := Minimality for G Sort Prop
  with Rest_mind := Minimality for Rest Sort Prop
  with List1_mind := Minimality for List1 Sort Prop
  with Args_mind := Minimality for Args Sort Prop
  with Members_mind := Minimality for Members Sort Prop
  with Member_mind := Minimality for Member Sort Prop.
Combined Scheme grammar_ind from G_mind, Rest_mind, List1_mind, Args_mind, Members_mind, Member_mind.

Section C.
Variable is_dtype : text -> bool.
Notation G := (G is_dtype).
Notation Rest := (Rest is_dtype).
Notation List1 := (List1 is_dtype).
Notation Args := (Args is_dtype).
Notation Members := (Members is_dtype).
Notation Member := (Member is_dtype).

(** *** First tokens *)
Definition operand_start (k : tkind) : bool := starts_expr k && negb (tkind_eqb k T_MINUS) && negb (tkind_eqb k T_NOT).
Definition starts (p : tkind -> bool) (c : list token) : Prop := exists t c', c = t :: c' /\ p (tk t) = true.
Lemma starts_app p c r : starts p c -> starts p (c ++ r).
Proof. intros (t & c' & -> & H). exists t, (c' ++ r). auto. Qed.
Lemma starts_kind (p : tkind -> bool) k t c : tk t = k -> p k = true -> starts p (t :: c).
Proof. intros <- H. exists t, c. auto. Qed.
Lemma G_starts n c e : G n c e -> starts starts_expr c /\ (n = 9 -> starts operand_start c).
Proof.
  induction 1;
    try (split; [|discriminate]; first [now apply starts_app | tauto]);
    try (match goal with |- context [starts _ (?t :: _)] =>
           first [ let E := fresh in assert (tk t = T_LPAREN) as E by (eapply sym_kind; [eassumption|solve [in_table]]); split; [|intros _]; (eapply starts_kind; [exact E|reflexivity])
                 | let E := fresh in assert (tk t = T_LBRACKET) as E by (eapply sym_kind; [eassumption|solve [in_table]]); split; [|intros _]; (eapply starts_kind; [exact E|reflexivity])
                 | let E := fresh in assert (tk t = T_AUTO) as E by (eapply kw_kind; [eassumption|solve [in_table]]); split; [|intros _]; (eapply starts_kind; [exact E|reflexivity])
                 | split; [|intros _]; (eapply starts_kind; [eassumption|reflexivity]) ] end).
  - split; [|intros; lia]. now apply starts_app.
  - split; [|discriminate]. apply unop_ops in H. exists o, ts. split; auto. destruct (tk o); try discriminate H; reflexivity.
Qed.
Lemma Rest_starts n e c e' : Rest n e c e' -> c = [] \/ exists t c', c = t :: c' /\ goes_on (tk t) = n.
Proof.
  destruct 1; auto. right. exists o, (r ++ ts). split; auto. apply binop_ops in H. now apply ops_goes_on in H.
Qed.
Lemma Member_starts c m : Member c m -> exists t c', c = t :: c' /\ (tk t = T_DOT \/ tk t = T_LBRACKET).
Proof.
  destruct 1; eexists; eexists; (split; [reflexivity|]);
    first [left; eapply sym_kind; [eassumption|solve [in_table]] | right; eapply sym_kind; [eassumption|solve [in_table]]].
Qed.
Lemma Members_starts c m : Members c m -> exists t c', c = t :: c' /\ (tk t = T_DOT \/ tk t = T_LBRACKET).
Proof.
  destruct 1. now apply Member_starts in H. apply Member_starts in H as (t & c' & -> & H). exists t, (c' ++ ts'). auto.
Qed.
Lemma Args_starts c es : Args c es -> exists t c', c = t :: c' /\ tk t = T_LPAREN.
Proof. destruct 1; eexists; eexists; (split; [reflexivity|]); eapply sym_kind; [eassumption|in_table|eassumption|solve [in_table]]. Qed.

Lemma valid_name t : tok_ok t -> tk t = T_IDENTIFIER -> is_dtype (tx t) = false -> valid_identifier is_dtype (tx t) = true.
Proof. intros H E Hd. unfold valid_identifier. rewrite Hd. unfold tok_ok in H. rewrite E in H. apply lexeme_ident in H. now rewrite H. Qed.

(** *** The parser at each level *)
Definition pexp := parse_expression is_dtype.
Definition level_parser (n : nat) (f : nat) (ts : toks) : outcome (operand * toks) :=
  match n with
  | 1 => parse_assign is_dtype (pexp f) ts
  | 3 => parse_logic_expr is_dtype (pexp f) ts
  | 4 => parse_cmp_expr is_dtype (pexp f) ts
  | 5 => parse_additive_expr is_dtype (pexp f) ts
  | 6 => parse_multiplicative_expr is_dtype (pexp f) ts
  | 7 => parse_power_expr is_dtype (pexp f) (S (length ts)) ts
  | 8 => parse_unary_expr is_dtype (pexp f) ts
  | _ => parse_operand is_dtype (pexp f) ts
  end.
Lemma level_left n f ts : 3 <= n <= 6 -> level_parser n f ts = parse_binary_left (level_parser (S n) f) (ops n) ts.
Proof. intros H. assert (n = 3 \/ n = 4 \/ n = 5 \/ n = 6) as C by lia. now destruct C as [ -> | [ -> | [ -> | -> ]]]. Qed.
Lemma pexp_S f ts : pexp (S f) ts = level_parser 1 f ts.
Proof. reflexivity. Qed.

Definition found (n f : nat) (c : list token) (e : expr) (rest : toks) : Prop :=
  (exists a, denote a = e /\ level_parser n f (c ++ rest) = Ret (a, rest)) /\
  (n = 7 -> forall fuel, length (c ++ rest) < fuel -> exists a, denote a = e /\ parse_power_expr is_dtype (pexp f) fuel (c ++ rest) = Ret (a, rest)).

Definition PG (n : nat) (c : list token) (e : expr) : Prop :=
  forall f rest, Forall tok_ok c -> stream rest -> follow n rest -> length (c ++ rest) <= S f -> found n f c e rest.
Definition PR (n : nat) (e1 : expr) (c : list token) (e : expr) : Prop :=
  forall f rest fuel lhs, 3 <= n <= 6 -> Forall tok_ok c -> stream rest -> follow n rest -> length (c ++ rest) <= S f ->
    length (c ++ rest) < fuel -> denote lhs = e1 ->
    exists a, denote a = e /\ binary_loop (level_parser (S n) f) (ops n) fuel lhs (c ++ rest) = Ret (a, rest).
Definition closes (rest : toks) : Prop := goes_on (tk (cur rest)) = 0 /\ tk (cur rest) <> T_COMMA.
Definition PL (c : list token) (es : list expr) : Prop :=
  forall f rest, Forall tok_ok c -> stream rest -> closes rest -> length (c ++ rest) <= f ->
    exists a new ts1, pexp f (c ++ rest) = Ret (a, ts1) /\ map denote (a :: new) = es /\
      forall fuel acc, length ts1 < fuel -> more_exprs (pexp f) fuel acc ts1 = Ret (acc ++ new, rest).
Definition PA (c : list token) (es : list expr) : Prop :=
  forall f rest, Forall tok_ok c -> stream rest -> length (c ++ rest) <= S f ->
    exists a, parse_func_invoke_args (pexp f) (c ++ rest) = Ret (a, rest) /\ match a with None => [] | Some l => map denote l end = es.
Definition PM (c : list token) (m : mem) : Prop :=
  forall f rest, Forall tok_ok c -> stream rest -> tk (cur rest) <> T_LPAREN -> length (c ++ rest) <= S f ->
    exists a, denote_member a = m /\
      (tk (cur (c ++ rest)) = T_DOT /\ parse_field_access (pexp f) (c ++ rest) = Ret (a, rest) \/
       tk (cur (c ++ rest)) = T_LBRACKET /\ parse_dynamic_param_access (c ++ rest) = Ret (a, rest)).
Definition PMs (c : list token) (ms : list mem) : Prop :=
  forall f rest fuel acc, Forall tok_ok c -> stream rest -> follow 9 rest -> length (c ++ rest) <= S f -> length (c ++ rest) < fuel ->
    exists new, map denote_member new = ms /\ parse_member_access (pexp f) fuel acc (c ++ rest) = Ret (acc ++ new, rest).

Lemma found_not7 n f c e rest : n <> 7 -> (exists a, denote a = e /\ level_parser n f (c ++ rest) = Ret (a, rest)) -> found n f c e rest.
Proof. intros H E. split; [auto|contradiction]. Qed.
Lemma follow_le n m rest : n <= m -> follow n rest -> follow m rest.
Proof. unfold follow. lia. Qed.
Ltac symk H k := let E := fresh "K" in assert (E := sym_kind _ _ H k ltac:(in_table)).
Ltac kwk H k := let E := fresh "K" in assert (E := kw_kind _ _ H k ltac:(in_table)).
Ltac foralls := repeat match goal with
  | H : Forall _ (_ :: _) |- _ => inversion H; subst; clear H
  | H : Forall _ (_ ++ _) |- _ => apply Forall_app in H as [? ?]
  end.
Ltac lens := cbn [length] in *; repeat (rewrite !app_length in *; cbn [length] in *).

(** A nested expression. *)
Lemma nested c e f rest : PG 1 c e -> Forall tok_ok c -> stream rest -> follow 1 rest -> length (c ++ rest) <= f ->
  exists a, denote a = e /\ pexp f (c ++ rest) = Ret (a, rest).
Proof.
  intros H Hc Hs Hf Hl. destruct f as [|f]. { rewrite app_length in Hl. apply stream_len in Hs. lia. }
  destruct (H f rest Hc Hs Hf Hl) as ((a & E & Ha) & _). eauto.
Qed.
Lemma nonnil_app (c rest : list token) : stream rest -> c ++ rest <> [].
Proof. intros H. apply stream_nonnil in H. destruct c; [auto|discriminate]. Qed.
Lemma follow_sym s k t n rest : is_sym s t -> In (s, k) symbol_table -> goes_on k < n -> follow n (t :: rest).
Proof. intros H Hi Hg. unfold follow. cbn [cur hd]. now rewrite (sym_kind _ _ H _ Hi). Qed.

Lemma complete :
  (forall n c e, G n c e -> PG n c e) /\ (forall n e c e', Rest n e c e' -> PR n e c e') /\
  (forall c es, List1 c es -> PL c es) /\ (forall c es, Args c es -> PA c es) /\
  (forall c ms, Members c ms -> PMs c ms) /\ (forall c m, Member c m -> PM c m).
Proof.
  apply grammar_ind.
  - (* g_expr *) intros ts e Hg IH f rest Hc Hs Hf Hl. apply found_not7; [discriminate|].
    destruct (IH f rest Hc Hs (follow_le 1 3 rest ltac:(lia) Hf) Hl) as ((a & E & Ha) & _). exists a. split; auto.
    cbn [level_parser] in *. unfold parse_assign. rewrite Ha. cbn [obind]. unfold follow in Hf.
    rewrite peek_no by (intros K; rewrite K in Hf; cbn in Hf; lia).
    rewrite (goes_on_ops 1 (tk (cur rest)) ltac:(lia) : assign_op (tk (cur rest)) = None). reflexivity.
  - (* g_cond *) intros c q a col b ec ea eb Hc IHc Hq Ha IHa Hcol Hb IHb f rest Hok Hs Hf Hl. apply found_not7; [discriminate|].
    foralls. symk Hq T_QUESTION. symk Hcol T_COLON. rewrite <- app_assoc in *. cbn [app] in *. rewrite <- app_assoc in *. cbn [app] in *.
    assert (stream (b ++ rest)) as S1 by (apply stream_app; auto).
    assert (stream (col :: b ++ rest)) as S2 by (apply (stream_app [col]); auto).
    assert (stream (a ++ col :: b ++ rest)) as S3 by (apply stream_app; auto).
    assert (stream (q :: a ++ col :: b ++ rest)) as S4 by (apply (stream_app [q]); auto).
    destruct (IHc f (q :: a ++ col :: b ++ rest) ltac:(auto) S4 ltac:(unfold follow; cbn [cur hd]; rewrite K; cbn; lia) Hl) as ((xc & Ec & Hxc) & _).
    lens. destruct (nested a ea f (col :: b ++ rest) IHa ltac:(auto) S2 ltac:(unfold follow; cbn [cur hd]; rewrite K0; cbn; lia) ltac:(lens; lia)) as (xa & Ea & Hxa).
    destruct (nested b eb f rest IHb ltac:(auto) Hs Hf ltac:(lens; lia)) as (xb & Eb & Hxb).
    exists (O_bin (O_select xc (xa, xb)) [] 0). split. cbn. now rewrite Ec, Ea, Eb.
    cbn [level_parser] in *. unfold parse_assign. rewrite Hxc. cbn [obind]. rewrite peek_yes by exact K.
    rewrite advance_cons by (now apply stream_nonnil). rewrite Hxa. cbn [obind]. rewrite expect_hit; [|now apply stream_nonnil|exact K0]. cbn [obind].
    rewrite Hxb. cbn [obind]. unfold follow in Hf. now rewrite (goes_on_ops 1 (tk (cur rest)) ltac:(lia) : assign_op (tk (cur rest)) = None).
  - (* g_assign *) intros l o r op el er Hl IHl Ho Hr IHr f rest Hok Hs Hf Hlen. apply found_not7; [discriminate|].
    foralls. apply binop_ops in Ho. rewrite <- app_assoc in *. cbn [app] in *.
    assert (stream (r ++ rest)) as S1 by (apply stream_app; auto).
    assert (stream (o :: r ++ rest)) as S2 by (apply (stream_app [o]); auto).
    pose proof (ops_goes_on _ _ _ Ho) as K.
    destruct (IHl f (o :: r ++ rest) ltac:(auto) S2 ltac:(unfold follow; cbn [cur hd]; rewrite K; lia) Hlen) as ((xl & El & Hxl) & _).
    lens. destruct (nested r er f rest IHr ltac:(auto) Hs Hf ltac:(lens; lia)) as (xr & Er & Hxr).
    exists (O_bin xl [(op, xr)] (tp o)). split. cbn. now rewrite El, Er.
    cbn [level_parser] in *. unfold parse_assign. rewrite Hxl. cbn [obind].
    rewrite peek_no by (cbn [cur hd]; intros K'; rewrite K' in Ho; discriminate Ho). cbn [cur hd].
    rewrite (Ho : assign_op (tk o) = Some op). rewrite advance_cons by (now apply stream_nonnil). now rewrite Hxr.
  - (* g_left *) intros n ts1 ts2 e1 e Hn Hg IHg Hr IHr f rest Hok Hs Hf Hl. apply found_not7; [lia|]. foralls. rewrite <- app_assoc in *.
    assert (stream (ts2 ++ rest)) as S1 by (apply stream_app; auto).
    assert (follow (S n) (ts2 ++ rest)) as F1.
    { destruct (Rest_starts _ _ _ _ Hr) as [->|(t & c' & -> & K)]. now apply (follow_le n); auto. unfold follow. cbn [app cur hd]. lia. }
    destruct (IHg f (ts2 ++ rest) ltac:(auto) S1 F1 Hl) as ((a & Ea & Ha) & _). lens.
    destruct (IHr f rest (S (length (ts2 ++ rest))) a Hn ltac:(auto) Hs Hf ltac:(lens; lia) ltac:(lia) Ea) as (b & Eb & Hb).
    exists b. split; auto. rewrite (level_left n f _ Hn). unfold parse_binary_left. rewrite Ha. cbn [obind]. exact Hb.
  - (* g_pow1 *) intros ts e Hg IH f rest Hok Hs Hf Hl.
    assert (forall fuel, length (ts ++ rest) < fuel -> exists a, denote a = e /\ parse_power_expr is_dtype (pexp f) fuel (ts ++ rest) = Ret (a, rest)) as X.
    { intros fuel Hfu. destruct fuel as [|fuel]; [lia|]. destruct (IH f rest Hok Hs (follow_le 7 8 rest ltac:(lia) Hf) Hl) as ((a & E & Ha) & _).
      exists (O_bin a [] 0). split; auto. cbn [parse_power_expr]. cbn [level_parser] in Ha. rewrite Ha. cbn [obind].
      unfold follow in Hf. now rewrite peek_no by (intros K; rewrite K in Hf; cbn in Hf; lia). }
    split; auto. apply X. lia.
  - (* g_pow *) intros l o r op el er Hl IHl Ho Hr IHr f rest Hok Hs Hf Hlen. foralls. apply binop_ops in Ho.
    assert (tk o = T_CARET /\ op = OP_POW) as [K ->] by (destruct (tk o); try discriminate Ho; injection Ho as <-; auto).
    assert (forall fuel, length ((l ++ o :: r) ++ rest) < fuel -> exists a, denote a = EBin OP_POW el er /\ parse_power_expr is_dtype (pexp f) fuel ((l ++ o :: r) ++ rest) = Ret (a, rest)) as X.
    { intros fuel Hfu. destruct fuel as [|fuel]; [lia|]. rewrite <- app_assoc in *. cbn [app] in *.
      assert (stream (r ++ rest)) as S1 by (apply stream_app; auto).
      assert (stream (o :: r ++ rest)) as S2 by (apply (stream_app [o]); auto).
      destruct (IHl f (o :: r ++ rest) ltac:(auto) S2 ltac:(unfold follow; cbn [cur hd]; rewrite K; cbn; lia) Hlen) as ((xl & El & Hxl) & _).
      lens. destruct (IHr f rest ltac:(auto) Hs Hf ltac:(lens; lia)) as (_ & Hp). destruct (Hp eq_refl fuel ltac:(lens; lia)) as (xr & Er & Hxr).
      exists (O_bin xl [(OP_POW, xr)] (tp o)). split. cbn. now rewrite El, Er. cbn [parse_power_expr]. cbn [level_parser] in Hxl. rewrite Hxl. cbn [obind].
      rewrite peek_yes by exact K. rewrite advance_cons by (now apply stream_nonnil). now rewrite Hxr. }
    split; auto. apply X. lia.
  - (* g_un1 *) intros ts e Hg IH f rest Hok Hs Hf Hl. apply found_not7; [discriminate|].
    destruct (IH f rest Hok Hs (follow_le 8 9 rest ltac:(lia) Hf) Hl) as ((a & E & Ha) & _). exists (O_un None a 0). split; auto.
    destruct (G_starts _ _ _ Hg) as (_ & Hst). destruct (Hst eq_refl) as (t & c' & -> & Ht).
    cbn [level_parser app] in *. unfold parse_unary_expr. cbn [cur hd].
    replace (tis t T_MINUS) with false. 2: { symmetry. apply tis_false. intros K. rewrite K in Ht. discriminate. }
    replace (tis t T_NOT) with false. 2: { symmetry. apply tis_false. intros K. rewrite K in Ht. discriminate. }
    cbn [orb]. rewrite Ha. reflexivity.
  - (* g_un *) intros o ts op e Ho Hg IH f rest Hok Hs Hf Hl. apply found_not7; [discriminate|]. foralls. apply unop_ops in Ho.
    cbn [app] in *. lens. destruct (IH f rest ltac:(auto) Hs (follow_le 8 9 rest ltac:(lia) Hf) ltac:(lens; lia)) as ((a & E & Ha) & _).
    exists (O_un (Some op) a (tp o)). split. cbn. now rewrite E. cbn [level_parser] in *. unfold parse_unary_expr. cbn [cur hd].
    replace (tis o T_MINUS || tis o T_NOT) with true.
    2: { symmetry. apply orb_true_iff. destruct (tk o) eqn:K; try discriminate Ho; [left|right]; now apply tis_true. }
    rewrite advance_cons by (now apply nonnil_app). rewrite Ha. cbn [obind]. now rewrite Ho.
  - (* g_true *) intros t Hk Ht f rest Hok Hs Hf Hl. apply found_not7; [discriminate|]. exists (O_bool true). split; auto.
    cbn [level_parser app]. unfold parse_operand. cbn [cur hd]. rewrite (proj2 (tis_true t T_BOOL) Hk). rewrite advance_cons by (now apply stream_nonnil). now rewrite Ht.
  - (* g_false *) intros t Hk Ht f rest Hok Hs Hf Hl. apply found_not7; [discriminate|]. exists (O_bool false). split; auto.
    cbn [level_parser app]. unfold parse_operand. cbn [cur hd]. rewrite (proj2 (tis_true t T_BOOL) Hk). rewrite advance_cons by (now apply stream_nonnil). now rewrite Ht.
  - (* g_num *) intros t v ty Hk Ht f rest Hok Hs Hf Hl. apply found_not7; [discriminate|]. exists (O_num v ty). split; auto.
    cbn [level_parser app]. unfold parse_operand. cbn [cur hd]. rewrite advance_cons by (now apply stream_nonnil). unfold tis, tkind_eqb. rewrite Hk. cbn. now rewrite Ht.
  - (* g_str *) intros t s Hk Ht f rest Hok Hs Hf Hl. apply found_not7; [discriminate|]. exists (O_str s). split; auto.
    cbn [level_parser app]. unfold parse_operand. cbn [cur hd]. rewrite advance_cons by (now apply stream_nonnil). unfold tis, tkind_eqb. rewrite Hk. cbn [tkind_eq_dec].
    cbn. now rewrite Ht, strip_quoted.
  - (* g_def *) intros a t Ha Hk Hd f rest Hok Hs Hf Hl. apply found_not7; [discriminate|]. foralls. kwk Ha T_AUTO. exists (O_def (tx t) (tp t)). split; auto.
    cbn [level_parser app]. unfold parse_operand. cbn [cur hd]. unfold tis, tkind_eqb. rewrite K. cbv beta iota.
    rewrite advance_cons by discriminate. cbn. rewrite expect_hit; [|now apply stream_nonnil|auto]. cbn [obind]. now rewrite valid_name.
  - (* g_paren *) intros l ts r e Hl Hg IH Hr f rest Hok Hs Hf Hlen. apply found_not7; [discriminate|]. foralls. symk Hl T_LPAREN. symk Hr T_RPAREN.
    cbn [app] in *. rewrite <- app_assoc in *. cbn [app] in *. lens.
    assert (stream (r :: rest)) as S1 by (apply (stream_app [r]); auto).
    destruct (nested ts e f (r :: rest) IH ltac:(auto) S1 ltac:(unfold follow; cbn [cur hd]; rewrite K0; cbn; lia) ltac:(lens; lia)) as (a & E & Ha).
    exists a. split; auto. cbn [level_parser]. unfold parse_operand. cbn [cur hd]. unfold tis at 1 2 3 4 5, tkind_eqb. rewrite K. cbv beta iota.
    rewrite advance_cons by (now apply nonnil_app). cbn [tkind_eq_dec]. cbn. rewrite Ha. cbn [obind]. rewrite expect_hit; [|now apply stream_nonnil|exact K0]. reflexivity.
  - (* g_array0 *) intros l r Hl Hr f rest Hok Hs Hf Hlen. apply found_not7; [discriminate|]. foralls. symk Hl T_LBRACKET. symk Hr T_RBRACKET.
    exists (O_array [] (tp r)). split; auto. cbn [level_parser app]. unfold parse_operand. cbn [cur hd]. unfold tis, tkind_eqb. rewrite K. cbn.
    unfold parse_array. rewrite advance_cons by discriminate. cbv zeta. rewrite peek_yes by exact K0. cbn [obind]. rewrite expect_hit; [|now apply stream_nonnil|exact K0]. reflexivity.
  - (* g_array *) intros l ts r es Hl Hg IH Hr f rest Hok Hs Hf Hlen. apply found_not7; [discriminate|]. foralls. symk Hl T_LBRACKET. symk Hr T_RBRACKET.
    cbn [app] in *. rewrite <- app_assoc in *. cbn [app] in *. lens.
    assert (stream (r :: rest)) as S1 by (apply (stream_app [r]); auto).
    destruct (IH f (r :: rest) ltac:(auto) S1) as (a & new & ts1 & Ha & Em & Hm). { split; cbn [cur hd]; rewrite K0; [reflexivity|discriminate]. } { lens; lia. }
    exists (O_array (a :: new) (tp (cur (ts ++ r :: rest)))). split. cbn in *. now rewrite Em.
    cbn [level_parser]. unfold parse_operand. cbn [cur hd]. unfold tis, tkind_eqb. rewrite K. cbn.
    unfold parse_array. rewrite advance_cons by (now apply nonnil_app). cbv zeta.
    assert (starts starts_expr ts) as (t & c' & -> & Ht). { destruct Hg as [? ? Hg|? ? ? ? ? Hg]; apply G_starts in Hg as [Hg _]; auto using starts_app. }
    rewrite peek_no. 2: { cbn [app cur hd]. intros K'. rewrite K' in Ht. discriminate. }
    rewrite Ha. cbn [obind]. rewrite Hm by lia. cbn [obind app]. rewrite expect_hit; [|now apply stream_nonnil|exact K0]. reflexivity.
  - (* g_var *) intros t Hk Hd f rest Hok Hs Hf Hl. apply found_not7; [discriminate|]. foralls. exists (O_var (tx t) None None (tp t)). split; auto.
    cbn [level_parser app]. unfold parse_operand. cbn [cur hd]. unfold tis, tkind_eqb. rewrite Hk. cbn.
    unfold parse_var_accessor. cbn [cur hd]. rewrite advance_cons by (now apply stream_nonnil). cbv zeta. rewrite valid_name by auto. unfold follow in Hf.
    rewrite !peek_no by (intros K; rewrite K in Hf; cbn in Hf; lia). reflexivity.
  - (* g_call *) intros t ts es Hk Hd Ha IH f rest Hok Hs Hf Hl. apply found_not7; [discriminate|]. foralls.
    cbn [app] in *. lens. destruct (IH f rest ltac:(auto) Hs ltac:(lens; lia)) as (a & Ea & Em).
    exists (O_var (tx t) None (Some a) (tp t)). split. { destruct a; cbn in *; now rewrite Em. }
    cbn [level_parser]. unfold parse_operand. cbn [cur hd]. unfold tis, tkind_eqb. rewrite Hk. cbn.
    unfold parse_var_accessor. cbn [cur hd]. rewrite advance_cons by (now apply nonnil_app). cbv zeta. rewrite valid_name by auto.
    destruct (Args_starts _ _ Ha) as (u & c' & Ec & K). rewrite !peek_no by (rewrite Ec; cbn [app cur hd]; congruence). cbn [orb].
    rewrite peek_yes by (rewrite Ec; exact K). rewrite Ea. reflexivity.
  - (* g_member *) intros t ts ms Hk Hd Ha IH f rest Hok Hs Hf Hl. apply found_not7; [discriminate|]. foralls.
    cbn [app] in *. lens. destruct (IH f rest (S (length (ts ++ rest))) [] ltac:(auto) Hs Hf ltac:(lens; lia) ltac:(lia)) as (new & Em & Ea).
    exists (O_var (tx t) (Some new) None (tp t)). split. { cbn. now rewrite Em. }
    cbn [level_parser]. unfold parse_operand. cbn [cur hd]. unfold tis, tkind_eqb. rewrite Hk. cbn.
    unfold parse_var_accessor. cbn [cur hd]. rewrite advance_cons by (now apply nonnil_app). cbv zeta. rewrite valid_name by auto.
    destruct (Members_starts _ _ Ha) as (u & c' & Ec & K). replace (peek_is T_DOT (ts ++ rest) || peek_is T_LBRACKET (ts ++ rest)) with true.
    2: { symmetry. apply orb_true_iff. rewrite Ec. destruct K; [left|right]; now apply peek_yes. }
    rewrite Ea. reflexivity.
  - (* r_nil *) intros n e f rest fuel lhs Hn Hok Hs Hf Hl Hfu El. exists lhs. split; auto. destruct fuel as [|fuel]; [lia|]. cbn [app binary_loop].
    unfold follow in Hf. now rewrite (goes_on_ops n (tk (cur rest)) ltac:(lia)).
  - (* r_cons *) intros n e o r ts op e2 e' Ho Hg IHg Hr IHr f rest fuel lhs Hn Hok Hs Hf Hl Hfu El. foralls. apply binop_ops in Ho.
    cbn [app] in *. rewrite <- app_assoc in *. destruct fuel as [|fuel]; [lia|]. cbn [binary_loop cur hd]. rewrite Ho.
    assert (stream (ts ++ rest)) as S1 by (apply stream_app; auto). lens.
    rewrite advance_cons by (now apply nonnil_app).
    assert (follow (S n) (ts ++ rest)) as F1.
    { destruct (Rest_starts _ _ _ _ Hr) as [->|(t & c' & -> & K)]. now apply (follow_le n); auto. unfold follow. cbn [app cur hd]. lia. }
    destruct (IHg f (ts ++ rest) ltac:(auto) S1 F1 ltac:(lens; lia)) as ((a & Ea & Ha) & _). rewrite Ha. cbn [obind].
    apply IHr; auto; try (lens; lia). cbn. now rewrite Ea.
  - (* l_one *) intros ts e Hg IH f rest Hok Hs (Hf & Hcm) Hl.
    destruct (nested ts e f rest IH Hok Hs ltac:(unfold follow; lia) Hl) as (a & Ea & Ha). exists a, [], rest. split; auto. split. cbn. now rewrite Ea.
    intros fuel acc Hfu. destruct fuel; [lia|]. cbn [more_exprs]. rewrite peek_no by auto. now rewrite app_nil_r.
  - (* l_cons *) intros ts c ts' e es Hg IHg Hc Hr IHr f rest Hok Hs Hcl Hl. foralls. symk Hc T_COMMA. rewrite <- app_assoc in *. cbn [app] in *.
    assert (stream (ts' ++ rest)) as S1 by (apply stream_app; auto).
    assert (stream (c :: ts' ++ rest)) as S2 by (apply (stream_app [c]); auto).
    destruct (nested ts e f (c :: ts' ++ rest) IHg ltac:(auto) S2 ltac:(unfold follow; cbn [cur hd]; rewrite K; cbn; lia) Hl) as (a & Ea & Ha).
    lens. destruct (IHr f rest ltac:(auto) Hs Hcl ltac:(lens; lia)) as (b & new & ts1 & Hb & Em & Hm).
    exists a, (b :: new), (c :: ts' ++ rest). split; auto. split. { cbn in *. now rewrite Ea, Em. }
    intros fuel acc Hfu. destruct fuel as [|fuel]; [lia|]. cbn [more_exprs]. rewrite peek_yes by exact K. rewrite advance_cons by (now apply nonnil_app).
    rewrite Hb. cbn [obind]. rewrite Hm. now rewrite <- app_assoc.
    pose proof (parse_expression_ok is_dtype f (ts' ++ rest) S1 ltac:(lens; lia)) as Hx. unfold pexp in Hb. rewrite Hb in Hx.
    destruct Hx as ((_ & cc & Hcc & Ecc & _) & _). assert (length (ts' ++ rest) = length cc + length ts1) by now rewrite Ecc, app_length. lens. lia.
  - (* a_nil *) intros l r Hl Hr f rest Hok Hs Hlen. foralls. symk Hl T_LPAREN. symk Hr T_RPAREN. exists None. split; auto. cbn [app].
    unfold parse_func_invoke_args. rewrite advance_cons by discriminate. cbv zeta. rewrite peek_yes by exact K0. cbn [obind]. rewrite expect_hit; [|now apply stream_nonnil|exact K0]. reflexivity.
  - (* a_some *) intros l ts r es Hl Hg IH Hr f rest Hok Hs Hlen. foralls. symk Hl T_LPAREN. symk Hr T_RPAREN.
    cbn [app] in *. rewrite <- app_assoc in *. cbn [app] in *. lens.
    assert (stream (r :: rest)) as S1 by (apply (stream_app [r]); auto).
    destruct (IH f (r :: rest) ltac:(auto) S1) as (a & new & ts1 & Ha & Em & Hm). { split; cbn [cur hd]; rewrite K0; [reflexivity|discriminate]. } { lens; lia. }
    exists (Some (a :: new)). split; [|exact Em].
    unfold parse_func_invoke_args. rewrite advance_cons by (now apply nonnil_app). cbv zeta.
    assert (starts starts_expr ts) as (t & c' & -> & Ht). { destruct Hg as [? ? Hg|? ? ? ? ? Hg]; apply G_starts in Hg as [Hg _]; auto using starts_app. }
    rewrite peek_no. 2: { cbn [app cur hd]. intros K'. rewrite K' in Ht. discriminate. }
    rewrite Ha. cbn [obind]. rewrite Hm by lia. cbn [obind app]. rewrite expect_hit; [|now apply stream_nonnil|exact K0]. reflexivity.
  - (* m_one *) intros ts m Hm IH f rest fuel acc Hok Hs Hf Hl Hfu.
    destruct fuel as [|fuel]; [lia|]. unfold follow in Hf.
    destruct (IH f rest Hok Hs ltac:(intros K; rewrite K in Hf; cbn in Hf; lia) Hl) as (a & Ea & Ha). exists [a]. split. cbn. now rewrite Ea.
    destruct (Member_starts _ _ Hm) as (u & c' & Ec & _). 
    assert (parse_member_access (pexp f) fuel (acc ++ [a]) rest = Ret (acc ++ [a], rest)) as X.
    { destruct fuel. { rewrite Ec in Hfu. cbn [app length] in Hfu. lia. } cbn [parse_member_access]. rewrite !peek_no by (intros K; rewrite K in Hf; cbn in Hf; lia). reflexivity. }
    cbn [parse_member_access]. destruct Ha as [[K Ha]|[K Ha]].
    rewrite peek_yes by exact K. rewrite Ha. exact X.
    rewrite peek_no by congruence. rewrite peek_yes by exact K. rewrite Ha. exact X.
  - (* m_cons *) intros ts ts' m ms Hm IH Hms IHs f rest fuel acc Hok Hs Hf Hl Hfu. foralls. rewrite <- app_assoc in *.
    destruct fuel as [|fuel]; [lia|]. assert (stream (ts' ++ rest)) as S1 by (apply stream_app; auto).
    destruct (Members_starts _ _ Hms) as (v & cv & Ev & Kv). destruct (Member_starts _ _ Hm) as (u & c' & Ec & _).
    destruct (IH f (ts' ++ rest) ltac:(auto) S1 ltac:(rewrite Ev; cbn [app cur hd]; destruct Kv; congruence) Hl) as (a & Ea & Ha).
    assert (length (ts' ++ rest) < fuel) as L1. { rewrite Ec in Hfu. lens. lia. }
    destruct (IHs f rest fuel (acc ++ [a]) ltac:(auto) Hs Hf ltac:(lens; lia) L1) as (new & En & Hnew).
    exists (a :: new). split. cbn. now rewrite Ea, En. replace (acc ++ a :: new) with ((acc ++ [a]) ++ new) by now rewrite <- app_assoc.
    cbn [parse_member_access]. destruct Ha as [[K Ha]|[K Ha]].
    rewrite peek_yes by exact K. rewrite Ha. exact Hnew.
    rewrite peek_no by congruence. rewrite peek_yes by exact K. rewrite Ha. exact Hnew.
  - (* m_field *) intros d t Hd Hk f rest Hok Hs Hn Hl. foralls. symk Hd T_DOT. exists (M_field (tx t) None (tp t)). split; auto. left. split; [exact K|].
    cbn [app]. unfold parse_field_access. rewrite advance_cons by discriminate. rewrite expect_hit; [|now apply stream_nonnil|auto]. cbn [obind]. now rewrite peek_no.
  - (* m_call *) intros d t ts es Hd Hk Ha IH f rest Hok Hs Hn Hl. foralls. symk Hd T_DOT. cbn [app] in *. lens.
    destruct (IH f rest ltac:(auto) Hs ltac:(lens; lia)) as (a & Ea & Em).
    exists (M_field (tx t) (Some a) (tp t)). split. { destruct a; cbn in *; now rewrite Em. } left. split; [exact K|].
    unfold parse_field_access. rewrite advance_cons by discriminate. rewrite expect_hit; [|now apply nonnil_app|auto]. cbn [obind].
    destruct (Args_starts _ _ Ha) as (u & c' & Ec & K'). rewrite peek_yes by (rewrite Ec; exact K'). rewrite Ea. reflexivity.
  - (* m_key *) intros l t r s Hl Hk Ht Hr f rest Hok Hs Hn Hlen. foralls. symk Hl T_LBRACKET. symk Hr T_RBRACKET. exists (M_str s). split; auto. right. split; [exact K|].
    cbn [app]. unfold parse_dynamic_param_access. rewrite advance_cons by discriminate. cbn [cur hd]. unfold tis, tkind_eqb. rewrite Hk. cbn.
    rewrite Ht, strip_quoted. rewrite expect_hit; [reflexivity|now apply stream_nonnil|exact K0].
  - (* m_index *) intros l t r Hl Hk Hr f rest Hok Hs Hn Hlen. foralls. symk Hl T_LBRACKET. symk Hr T_RBRACKET. exists (M_idx (index_literal (tx t))). split; auto. right. split; [exact K|].
    cbn [app]. unfold parse_dynamic_param_access. rewrite advance_cons by discriminate. cbn [cur hd]. unfold tis, tkind_eqb. rewrite Hk. cbn.
    rewrite expect_hit; [reflexivity|now apply stream_nonnil|exact K0].
  - (* m_ref *) intros l t r Hl Hk Hr f rest Hok Hs Hn Hlen. foralls. symk Hl T_LBRACKET. symk Hr T_RBRACKET. exists (M_var (tx t) (tp t)). split; auto. right. split; [exact K|].
    cbn [app]. unfold parse_dynamic_param_access. rewrite advance_cons by discriminate. cbn [cur hd]. unfold tis, tkind_eqb. rewrite Hk. cbn.
    rewrite expect_hit; [reflexivity|now apply stream_nonnil|exact K0].
Qed.

Lemma parse_expr_complete c e rest : G 1 c e -> Forall tok_ok c -> stream rest -> follow 1 rest ->
  exists a, denote a = e /\ parse_expr is_dtype (c ++ rest) = Ret (a, rest).
Proof.
  intros H Hc Hs Hf. apply (proj1 complete) in H. exact (nested c e (length (c ++ rest)) rest H Hc Hs Hf (le_n _)).
Qed.
End C.
