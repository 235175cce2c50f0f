(** C32, C33: the lexer. *)
From Coq Require Import Ascii String List Bool.
Import ListNotations.
From Verif Require Import Base Lexer_Model Lexer_Spec Lexer_Proofs.

(** ** C32 *)
(** Every source is lexed, without reading outside it, to exactly the tokens of the lexical
    specification (longest match; white space and comments separate). *)
Theorem C32_lexer_meets_spec : forall src, exists ts, lex_all src = Ret ts /\ lexes 0 src ts.
Proof. exact lex_all_ok. Qed.
Print Assumptions C32_lexer_meets_spec.

(** The specification admits no other token list. *)
Theorem C32_spec_deterministic : forall p s ts ts', lexes p s ts -> lexes p s ts' -> ts = ts'.
Proof. intros p s ts ts' H H'. exact (lexes_unique p s ts H ts' H'). Qed.
Print Assumptions C32_spec_deterministic.

(** The token list is finite, ends in one end-of-input token at the end of the source, and every token
    is the slice of the source at its position. *)
Theorem C32_tokens_are_slices : forall src ts, lex_all src = Ret ts ->
  length ts <= length src + 1 /\
  (exists ts', ts = ts' ++ [Token T_EOF [] (length src)] /\ Forall (fun t => tk t <> T_EOF) ts') /\
  Forall (fun t => tp t + length (tx t) <= length src /\ tx t = firstn (length (tx t)) (skipn (tp t) src)) ts.
Proof.
  intros src ts H. apply lex_complete in H. split; [|split].
  - exact (lexes_count 0 src ts H).
  - exact (lexes_ends 0 src ts H).
  - apply lexes_slices in H. eapply Forall_impl; [|exact H]. cbv beta. intros a (_ & H1 & H2).
    rewrite PeanoNat.Nat.sub_0_r in H2. auto.
Qed.
Print Assumptions C32_tokens_are_slices.

(** No text is lost: the tokens and the gaps between them rebuild the source, and the gaps are white
    space and comments only. *)
Theorem C32_no_text_lost : forall src ts, lex_all src = Ret ts ->
  exists gs g, length gs + 1 = length ts /\ Forall gap gs /\ last_gap g /\ src = rebuild (gs ++ [g]) ts.
Proof. intros src ts H. apply lex_complete in H. exact (lexes_rebuild 0 src ts H). Qed.
Print Assumptions C32_no_text_lost.

(** Lexemes written with white space between them are read back unchanged. *)
Theorem C32_written_tokens_read_back : forall ls, well_written ls ->
  lex_all (written_text ls) = Ret (written_tokens 0 ls).
Proof. exact lex_written. Qed.
Print Assumptions C32_written_tokens_read_back.

(** Because words contain colons, a conditional written without spaces is one word: the documented
    form [cond ? a : b] does not survive the removal of the spaces around the colon. *)
Theorem C32_colon_glued_refuted : exists ts ts',
  lex_all (lit "c?a : b") = Ret ts /\ lex_all (lit "c?a:b") = Ret ts' /\
  map tk ts = [T_IDENTIFIER; T_QUESTION; T_IDENTIFIER; T_COLON; T_IDENTIFIER; T_EOF] /\
  map tk ts' = [T_IDENTIFIER; T_QUESTION; T_IDENTIFIER; T_EOF].
Proof. do 2 eexists. split; [vm_compute; reflexivity|]. split; [vm_compute; reflexivity|]. split; reflexivity. Qed.
Print Assumptions C32_colon_glued_refuted.

Definition C32_nl : text := [nl_char].
Example C32_ex : lex_all (lit "x1 >= .5_f32 // note" ++ C32_nl ++ lit "&& s::len(y)") =
  Ret [Token T_IDENTIFIER (lit "x1") 0; Token T_GE (lit ">=") 3; Token T_NUMBER (lit ".5_f32") 6;
       Token T_AND (lit "&&") 21; Token T_IDENTIFIER (lit "s::len") 24; Token T_LPAREN (lit "(") 30;
       Token T_IDENTIFIER (lit "y") 31; Token T_RPAREN (lit ")") 32; Token T_EOF [] 33].
Proof. vm_compute. reflexivity. Qed.
Example C32_ex_errors : lex_all (lit "a $ & b") =
  Ret [Token T_IDENTIFIER (lit "a") 0; Token T_ERROR (lit "$") 2; Token T_ERROR (lit "&") 4;
       Token T_IDENTIFIER (lit "b") 6; Token T_EOF [] 7].
Proof. vm_compute. reflexivity. Qed.
Example C32_ex_written : well_written [(T_IF, lit "if", lit " "); (T_NUMBER, lit "2.5", lit "  ");
                                       (T_SLASH, lit "/", C32_nl ++ lit "//x" ++ C32_nl)].
Proof.
  assert (gap (lit " ")) by (apply gap_space; [left; reflexivity|constructor]).
  assert (lexeme T_NUMBER (lit "2.5")).
  { apply lex_number, number_plain, (numeral_frac (lit "2") (lit "5")); [constructor; [|constructor]|discriminate|constructor; [|constructor]];
      apply digit_ok; reflexivity. }
  constructor; [|constructor; [|constructor; [|constructor]]]; (split; [|split]); auto.
  - apply (lex_keyword "if"). simpl. auto.
  - exists " "%char, []. split; auto. left. reflexivity.
  - apply gap_space; auto. left. reflexivity.
  - exists " "%char, (lit " "). split; auto. left. reflexivity.
  - apply (lex_symbol "/"). simpl. auto 10.
  - apply gap_space. right. right. left. reflexivity.
    apply (gap_comment (lit "x") []). intros [H1|[]]. discriminate. constructor.
  - exists nl_char, (lit "//x" ++ C32_nl). split; auto. right. right. left. reflexivity.
Qed.

(** ** C33 *)
(** Whatever the order of Peek, PeekIs, Next, Expect and ConsumeIf, the answers are those of a cursor
    moving over the token list. *)
Theorem C33_lookahead_transparent : forall src ts calls, lex_all src = Ret ts ->
  call_lexers calls (new_lexer src) = Ret (answers calls ts).
Proof. exact calls_ok. Qed.
Print Assumptions C33_lookahead_transparent.

Example C33_ex : call_lexers [CPeek; CPeekIs T_PLUS; CNext; CConsumeIf T_MINUS; CConsumeIf T_PLUS; CPeek; CExpect T_NUMBER; CNext; CPeek]
                   (new_lexer (lit "a+b")) =
  Ret [ATok (Token T_IDENTIFIER (lit "a") 0); ABool false; ATok (Token T_IDENTIFIER (lit "a") 0); AOpt None;
       AOpt (Some (Token T_PLUS (lit "+") 1)); ATok (Token T_IDENTIFIER (lit "b") 2); ATok (Token T_ERROR (lit "b") 2);
       ATok (Token T_EOF [] 3); ATok (Token T_EOF [] 3)].
Proof. vm_compute. reflexivity. Qed.
