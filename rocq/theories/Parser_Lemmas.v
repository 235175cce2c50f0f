From Coq Require Import Ascii String List Bool Arith ZArith Lia.
Import ListNotations.
From Verif Require Import Base Lexer_Model Lexer_Spec Lexer_Proofs Op_Model Number_Model Parser_Model Parser_Spec.

(** ** Token streams *)
Definition tok_ok (t : token) : Prop := lexeme (tk t) (tx t).
Definition stream (ts : toks) : Prop :=
  exists body e, ts = body ++ [e] /\ tk e = T_EOF /\ Forall (fun t => tk t = T_ERROR \/ tok_ok t) body.

Lemma tis_true t k : tis t k = true <-> tk t = k.
Proof. unfold tis, tkind_eqb. destruct (tkind_eq_dec (tk t) k); split; congruence. Qed.
Lemma tis_false t k : tis t k = false <-> tk t <> k.
Proof. unfold tis, tkind_eqb. destruct (tkind_eq_dec (tk t) k); split; congruence. Qed.

Lemma tok_not_eof t : tk t = T_ERROR \/ tok_ok t -> tk t <> T_EOF.
Proof. intros [->|H]. discriminate. apply lexeme_kind in H. tauto. Qed.

Lemma stream_nonnil ts : stream ts -> ts <> [].
Proof. intros (b & e & -> & _). destruct b; discriminate. Qed.
Lemma stream_len ts : stream ts -> 1 <= length ts.
Proof. intros H. apply stream_nonnil in H. destruct ts; [congruence|simpl; lia]. Qed.
Lemma advance_cons t l : l <> [] -> advance (t :: l) = l.
Proof. destruct l; [congruence|reflexivity]. Qed.

Lemma stream_step ts : stream ts -> tk (cur ts) <> T_EOF ->
  ts = cur ts :: advance ts /\ stream (advance ts) /\ (tk (cur ts) <> T_ERROR -> tok_ok (cur ts)) /\ length ts = S (length (advance ts)).
Proof.
  intros (b & e & -> & He & Hb) H. destruct b as [|t b].
  - simpl in H. contradiction.
  - inversion Hb as [|? ? Ht Hb']; subst. cbn [app]. rewrite advance_cons by (destruct b; discriminate). cbn [cur hd].
    split; auto. split. exists b, e. auto. split; auto. intros Hne. destruct Ht; congruence.
Qed.
Lemma stream_app c rest : stream rest -> Forall tok_ok c -> stream (c ++ rest).
Proof.
  intros (b & e & -> & He & Hb) H. exists (c ++ b), e. rewrite app_assoc. split; auto. split; auto.
  apply Forall_app. split; auto. eapply Forall_impl; [|exact H]. auto.
Qed.

Lemma lexes_tokens p s ts : lexes p s ts -> Forall (fun t => tk t = T_EOF \/ tk t = T_ERROR \/ tok_ok t) ts.
Proof.
  induction 1; constructor; simpl; auto.
Qed.
Lemma lexes_stream p s ts : lexes p s ts -> stream ts.
Proof.
  intros H. pose proof (lexes_tokens _ _ _ H) as Ht. destruct (lexes_ends _ _ _ H) as (ts' & -> & Hne).
  exists ts', (Token T_EOF [] (p + length s)). split; auto. split; auto. apply Forall_app in Ht as [Ht _].
  rewrite Forall_forall in *. intros t Hin. specialize (Ht t Hin). specialize (Hne t Hin). destruct Ht; [contradiction|auto].
Qed.

(** ** Symbols and kinds *)
Lemma sym_kind s t : is_sym s t -> forall k, In (s, k) symbol_table -> tk t = k.
Proof. unfold is_sym. intros H k Hk. eapply sym_unique; eauto. Qed.
Ltac in_table := simpl; repeat (first [left; reflexivity | right]).
Lemma sym_of s k t : In (s, k) symbol_table -> tk t = k -> is_sym s t.
Proof. unfold is_sym. now intros H ->. Qed.
Lemma kw_kind s t : is_kw s t -> forall k, In (s, k) keyword_table -> tk t = k.
Proof. unfold is_kw. intros H k Hk. eapply kw_unique; eauto. Qed.
Lemma kw_of s k t : In (s, k) keyword_table -> tk t = k -> is_kw s t.
Proof. unfold is_kw. now intros H ->. Qed.

(** The operators of level n, as the parser matches them. *)
Definition ops (n : nat) : tkind -> option optok :=
  match n with
  | 1 => assign_op | 3 => logic_op | 4 => cmp_op | 5 => additive_op | 6 => multiplicative_op
  | 7 => fun k => match k with T_CARET => Some OP_POW | _ => None end
  | _ => fun _ => None
  end.
Lemma binop_ops n op t : binop n op t <-> ops n (tk t) = Some op.
Proof.
  split.
  - intros (s & Hs & Ht). unfold is_sym in Ht. simpl in Hs.
    repeat (destruct Hs as [Hs|Hs]; [injection Hs as <- <- <-; simpl in Ht;
      repeat (destruct Ht as [Ht|Ht]; [first [discriminate Ht | injection Ht as Ht; rewrite <- Ht; reflexivity]|]); contradiction|]). contradiction.
  - intros H. do 8 (destruct n as [|n]; [try discriminate H; simpl in H; destruct (tk t) eqn:E; try discriminate H; injection H as <-;
      eexists; (split; [|eapply sym_of; [|exact E]]); in_table|]). discriminate H.
Qed.
Lemma unop_ops op t : unop op t <-> unary_op (tk t) = Some op.
Proof.
  split.
  - intros (s & Hs & Ht). unfold is_sym in Ht. simpl in Hs.
    repeat (destruct Hs as [Hs|Hs]; [injection Hs as <- <-; simpl in Ht;
      repeat (destruct Ht as [Ht|Ht]; [first [discriminate Ht | injection Ht as Ht; rewrite <- Ht; reflexivity]|]); contradiction|]). contradiction.
  - intros H. destruct (tk t) eqn:E; try discriminate H; injection H as <-;
      eexists; (split; [|eapply sym_of; [|exact E]]); in_table.
Qed.
Lemma ops_goes_on n k op : ops n k = Some op -> goes_on k = n.
Proof. do 8 (destruct n as [|n]; [destruct k; intros H; try discriminate H; reflexivity|]). discriminate. Qed.
Lemma goes_on_ops n k : goes_on k <> n -> ops n k = None.
Proof. intros H. destruct (ops n k) eqn:E; auto. apply ops_goes_on in E. congruence. Qed.

Lemma strip_quoted s : strip_quotes (quote_char :: s ++ [quote_char]) = s.
Proof.
  unfold strip_quotes. cbn [skipn length]. rewrite app_length. cbn [length].
  replace (S (length s + 1) - 2) with (length s) by lia. now rewrite firstn_app, Nat.sub_diag, firstn_all, app_nil_r.
Qed.

Lemma lexeme_string t : lexeme T_STRING t -> exists s, t = quote_char :: s ++ [quote_char] /\ str_chars s.
Proof.
  intros H. inversion H as [s k Hk|s k Hk| | |u Hu]; subst.
  - simpl in Hk. repeat (destruct Hk as [Hk|Hk]; [discriminate|]). contradiction.
  - simpl in Hk. repeat (destruct Hk as [Hk|Hk]; [discriminate|]). contradiction.
  - eauto.
Qed.
Lemma lexeme_bool t : lexeme T_BOOL t -> t = lit "true" \/ t = lit "false".
Proof.
  intros H. inversion H as [s k Hk|s k Hk| | |u Hu]; subst.
  - simpl in Hk. repeat (destruct Hk as [Hk|Hk]; [first [discriminate Hk|injection Hk as <-; auto]|]). contradiction.
  - simpl in Hk. repeat (destruct Hk as [Hk|Hk]; [discriminate|]). contradiction.
Qed.
Lemma lexeme_ident t : lexeme T_IDENTIFIER t -> existsb (text_eqb t) reserved_keywords = false.
Proof.
  intros H. inversion H as [s k Hk|s k Hk|u Hu Hnk| |]; subst.
  - simpl in Hk. repeat (destruct Hk as [Hk|Hk]; [discriminate|]). contradiction.
  - simpl in Hk. repeat (destruct Hk as [Hk|Hk]; [discriminate|]). contradiction.
  - destruct (existsb (text_eqb t) reserved_keywords) eqn:E; auto. apply existsb_exists in E as (k & Hin & Ek).
    apply text_eqb_eq in Ek. subst k. exfalso. unfold reserved_keywords in Hin. cbn [In] in Hin.
    repeat (destruct Hin as [Hin|Hin]; [subst t; eapply Hnk; [|reflexivity]; in_table|]). contradiction.
Qed.
