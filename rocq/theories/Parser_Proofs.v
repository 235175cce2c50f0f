(** The statements of Parser_Props, about sources. *)
From Coq Require Import Ascii String List Bool Arith ZArith Lia.
Import ListNotations.
From Verif Require Import Base Lexer_Model Lexer_Spec Lexer_Proofs Op_Model Number_Model Number_Spec Number_Proofs Parser_Model Parser_Spec Parser_Lemmas Parser_Sound Parser_SoundStmt Parser_Complete Parser_CompleteStmt Parser_Print.

Lemma lex_stream src ts : lex_all src = Ret ts -> stream ts.
Proof. intros H. apply lex_complete in H. eapply lexes_stream; eauto. Qed.
Lemma lex_ret src : exists ts, lex_all src = Ret ts /\ stream ts.
Proof. destruct (lex_all_ok src) as (ts & H & _). exists ts. split; auto. eapply lex_stream; eauto. Qed.

(** A prefix of the tokens of a source that contains no error and no end of input is made of lexemes. *)
Definition good (t : token) : Prop := tk t <> T_ERROR.
Lemma prefix_ok c rest : rest <> [] -> stream (c ++ rest) -> Forall good c -> Forall tok_ok c /\ stream rest.
Proof.
  intros Hne (b & e & E & He & Hb) Hg.
  destruct (exists_last Hne) as (r & e' & ->). rewrite app_assoc in E. apply app_inj_tail in E as [<- ->].
  apply Forall_app in Hb as [H1 H2]. split; [|exists r, e; auto].
  rewrite Forall_forall in *. intros t Ht. destruct (H1 t Ht); auto. exfalso. now apply (Hg t Ht).
Qed.

(** ** Expressions *)
Lemma expression_sound is_dtype src a : parse_expression_ast is_dtype src = Ret a ->
  exists c rest, lex_all src = Ret (c ++ rest) /\ rest <> [] /\ G is_dtype 1 c (denote a).
Proof.
  unfold parse_expression_ast. destruct (lex_ret src) as (ts & E & Hs). rewrite E. cbn [obind].
  pose proof (parse_expr_ok is_dtype ts Hs) as H. destruct (parse_expr is_dtype ts) as [[x rest]| | |]; try discriminate.
  cbn [obind]. intros [= <-]. destruct H as (H1 & c & _ & -> & Hg). exists c, rest. split; auto. split; auto. now apply stream_nonnil.
Qed.
Lemma expression_complete is_dtype src c rest e : lex_all src = Ret (c ++ rest) -> rest <> [] -> Forall good c -> G is_dtype 1 c e ->
  goes_on (tk (cur rest)) = 0 -> exists a, parse_expression_ast is_dtype src = Ret a /\ denote a = e.
Proof.
  intros E Hne Hg Hd Hf. pose proof (lex_stream _ _ E) as Hs. destruct (prefix_ok c rest Hne Hs Hg) as [Hok Hs'].
  destruct (parse_expr_complete is_dtype c e rest Hd Hok Hs') as (a & Ea & Ha). unfold follow; lia.
  unfold parse_expression_ast. rewrite E. cbn [obind]. rewrite Ha. exists a. auto.
Qed.
Lemma expression_total is_dtype src : parse_expression_ast is_dtype src = Err \/ exists a, parse_expression_ast is_dtype src = Ret a.
Proof.
  unfold parse_expression_ast. destruct (lex_ret src) as (ts & E & Hs). rewrite E. cbn [obind].
  pose proof (parse_expr_ok is_dtype ts Hs) as H. destruct (parse_expr is_dtype ts) as [[x rest]| | |]; try contradiction; cbn; eauto.
Qed.
Lemma grammar_unambiguous is_dtype c e e' : Forall (fun t => lexeme (tk t) (tx t)) c -> G is_dtype 1 c e -> G is_dtype 1 c e' -> e = e'.
Proof.
  intros Hok H H'. set (eof := [Token T_EOF [] 0]). assert (stream eof) as Hs by (exists [], (Token T_EOF [] 0); auto).
  destruct (parse_expr_complete is_dtype c e eof H Hok Hs ltac:(unfold follow; cbn; lia)) as (a & <- & Ha).
  destruct (parse_expr_complete is_dtype c e' eof H' Hok Hs ltac:(unfold follow; cbn; lia)) as (a' & <- & Ha'). congruence.
Qed.

(** ** Functions *)
Section F.
Context {D : Type}.
Variable is_dtype : text -> bool.
Variable find_dtype : text -> option D.

Lemma function_sound src f : parse_function_ast is_dtype find_dtype src = Ret f ->
  exists c rest, lex_all src = Ret (c ++ rest) /\ rest <> [] /\ (terminated (c ++ rest) -> FuncG is_dtype find_dtype c (denote_func f)).
Proof.
  unfold parse_function_ast. destruct (lex_ret src) as (ts & E & Hs). rewrite E. cbn [obind].
  pose proof (func_ok is_dtype find_dtype 0 ts Hs) as H. destruct (parse_func is_dtype find_dtype 0 ts) as [[x rest]| | |]; try discriminate.
  cbn [obind]. intros [= <-]. destruct H as (H1 & c & _ & -> & Hg). exists c, rest. split; auto. split; auto. now apply stream_nonnil.
Qed.
Lemma function_total src : parse_function_ast is_dtype find_dtype src = Err \/ exists f, parse_function_ast is_dtype find_dtype src = Ret f.
Proof.
  unfold parse_function_ast. destruct (lex_ret src) as (ts & E & Hs). rewrite E. cbn [obind].
  pose proof (func_ok is_dtype find_dtype 0 ts Hs) as H. destruct (parse_func is_dtype find_dtype 0 ts) as [[x rest]| | |]; try contradiction; cbn; eauto.
Qed.
Lemma functions_sound src fs : parse_functions_ast is_dtype find_dtype src = Ret fs ->
  exists c e, lex_all src = Ret (c ++ [e]) /\ tk e = T_EOF /\ NoDup (map f_name fs) /\ (terminated (c ++ [e]) -> Program is_dtype find_dtype c (map denote_func fs)).
Proof.
  unfold parse_functions_ast. destruct (lex_ret src) as (ts & E & Hs). rewrite E. cbn [obind].
  pose proof (funcs_ok is_dtype find_dtype (S (length ts)) ts Hs ltac:(lia)) as H. destruct (parse_funcs is_dtype find_dtype (S (length ts)) ts) as [x| | |]; try discriminate.
  cbn [obind]. destruct (no_duplicates [] x) eqn:Ed; try discriminate. intros [= <-]. destruct H as (c & e & -> & He & Hp). exists c, e. split; auto. split; auto. split; auto.
  assert (forall (l : list (@func D)) seen, no_duplicates seen l = true -> NoDup (map f_name l) /\ forall f, In f l -> ~ In (f_name f) seen) as X.
  { induction l as [|f l IH]; intros seen H; cbn [map]. split; [constructor|contradiction]. cbn [no_duplicates] in H. apply andb_true_iff in H as [H1 H2].
    apply negb_true_iff in H1. destruct (IH _ H2) as [I1 I2]. split.
    - constructor; auto. intros Hin. apply in_map_iff in Hin as (g & Eg & Hg). apply (I2 g Hg). left. auto.
    - intros g [->|Hg] Hin. 2: { apply (I2 g Hg). now right. }
      assert (existsb (text_eqb (f_name g)) seen = true). { apply existsb_exists. exists (f_name g). split; auto. now apply text_eqb_eq. } congruence. }
  now apply X in Ed.
Qed.
Lemma functions_total src : parse_functions_ast is_dtype find_dtype src = Err \/ exists fs, parse_functions_ast is_dtype find_dtype src = Ret fs.
Proof.
  unfold parse_functions_ast. destruct (lex_ret src) as (ts & E & Hs). rewrite E. cbn [obind].
  pose proof (funcs_ok is_dtype find_dtype (S (length ts)) ts Hs ltac:(lia)) as H. destruct (parse_funcs is_dtype find_dtype (S (length ts)) ts) as [x| | |]; try contradiction; cbn [obind]; eauto.
  destruct (no_duplicates [] x); eauto.
Qed.

(** No type name begins with a closing parenthesis. *)
Hypothesis Hparen : forall n, find_dtype (lit ")" ++ n) = None.
Lemma function_complete src c rest g : lex_all src = Ret (c ++ rest) -> rest <> [] -> Forall good c -> FuncG is_dtype find_dtype c g ->
  exists f, parse_function_ast is_dtype find_dtype src = Ret f /\ denote_func f = g.
Proof.
  intros E Hne Hg Hd. pose proof (lex_stream _ _ E) as Hs. destruct (prefix_ok c rest Hne Hs Hg) as [Hok Hs'].
  destruct (func_complete is_dtype find_dtype Hparen c g rest 0 Hd Hok Hs') as (f & Ef & _ & Hf).
  unfold parse_function_ast. rewrite E. cbn [obind]. rewrite Hf. exists f. auto.
Qed.
Lemma functions_complete src c e gs : lex_all src = Ret (c ++ [e]) -> Forall good c -> Program is_dtype find_dtype c gs -> NoDup (map fn_name gs) ->
  exists fs, parse_functions_ast is_dtype find_dtype src = Ret fs /\ map denote_func fs = gs.
Proof.
  intros E Hg Hp Hnd. pose proof (lex_stream _ _ E) as Hs. destruct (prefix_ok c [e] ltac:(discriminate) Hs Hg) as [Hok Hs'].
  assert (tk e = T_EOF) as He. { destruct Hs' as (b & e' & Eb & He & _). destruct b as [|? [|]]; try discriminate. now injection Eb as <-. }
  destruct (program_complete is_dtype find_dtype Hparen c gs Hp Hok e (S (length (c ++ [e]))) He) as (fs & <- & Hf). rewrite app_length. lia.
  unfold parse_functions_ast. rewrite E. cbn [obind]. rewrite Hf. cbn [obind].
  assert (forall l seen, NoDup (map f_name l) -> (forall f : @func D, In f l -> ~ In (f_name f) seen) -> no_duplicates seen l = true) as X.
  { induction l as [|f l IH]; intros seen H1 H2; cbn [no_duplicates]; auto. cbn [map] in H1. inversion H1; subst. apply andb_true_iff. split.
    - apply negb_true_iff. destruct (existsb (text_eqb (f_name f)) seen) eqn:Ex; auto. apply existsb_exists in Ex as (y & Hy & Ey). apply text_eqb_eq in Ey. subst y. exfalso. eapply H2; eauto. now left.
    - apply IH; auto. intros g Hg' [Eg|Hin]. apply H3. rewrite Eg. apply in_map_iff. exists g. auto. apply (H2 g); auto. now right. }
  rewrite X. eauto. rewrite map_map in Hnd. exact Hnd. intros f _ [].
Qed.
End F.

(** ** A break or continue without semicolon *)
Lemma jump_dropped is_dtype fuel b t rest : (is_kw "break" b \/ is_kw "continue" b) -> ~ is_sym ";" t -> rest <> [] ->
  parse_statements is_dtype (S fuel) (b :: t :: rest) = Ret ([], rest).
Proof.
  intros Hb Ht Hr. assert (tk t <> T_SEMICOLON) as Nt. { intros K. apply Ht. apply (sym_of _ T_SEMICOLON); auto; in_table. }
  cbn [parse_statements]. unfold parse_statement. cbn [cur hd]. rewrite (advance_cons b) by discriminate.
  cbv zeta. rewrite (peek_no T_SEMICOLON (t :: rest)) by exact Nt. rewrite (advance_cons t) by auto.
  destruct Hb as [Hb|Hb].
  - rewrite (proj2 (tis_false b T_CONTINUE)). rewrite (proj2 (tis_true b T_BREAK)). reflexivity.
    apply (kw_kind _ _ Hb). solve [in_table]. rewrite (kw_kind _ _ Hb T_BREAK ltac:(in_table)). discriminate.
  - rewrite (proj2 (tis_true b T_CONTINUE)). reflexivity. apply (kw_kind _ _ Hb). solve [in_table].
Qed.

(** ** Index literals *)
Lemma leading_all t : forallb is_digit t = true -> leading_digits t = t.
Proof. induction t as [|c t IH]; cbn; auto. intros H. apply andb_true_iff in H as [-> H]. now rewrite IH. Qed.
Lemma leading_app t c r : forallb is_digit t = true -> is_digit c = false -> leading_digits (t ++ c :: r) = t.
Proof. intros H Hc. induction t as [|d t IH]; cbn. now rewrite Hc. cbn in H. apply andb_true_iff in H as [-> H]. now rewrite IH. Qed.
Lemma index_value t n : t <> [] -> denotes_int t n -> (n < 2 ^ 32)%Z -> index_literal t = n.
Proof.
  intros Hne H Hn. destruct (denotes_decimal t n H) as (E & H0 & Hd & _). unfold index_literal. rewrite (leading_all t Hd), E.
  destruct t; [congruence|]. now rewrite (proj2 (Z.ltb_lt n (2 ^ 32)) Hn).
Qed.
Lemma index_large t n : denotes_int t n -> (2 ^ 32 <= n)%Z -> index_literal t = 0%Z.
Proof.
  intros H Hn. destruct (denotes_decimal t n H) as (E & H0 & Hd & _). unfold index_literal. rewrite (leading_all t Hd), E.
  destruct t; auto. now rewrite (proj2 (Z.ltb_ge n (2 ^ 32)) Hn).
Qed.
Lemma index_fraction t n c r : t <> [] -> denotes_int t n -> (n < 2 ^ 32)%Z -> is_digit c = false -> index_literal (t ++ c :: r) = n.
Proof.
  intros Hne H Hn Hc. destruct (denotes_decimal t n H) as (E & H0 & Hd & _). unfold index_literal. rewrite (leading_app t c r Hd Hc), E.
  destruct t; [congruence|]. now rewrite (proj2 (Z.ltb_lt n (2 ^ 32)) Hn).
Qed.
