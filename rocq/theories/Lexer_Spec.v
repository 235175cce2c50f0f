(** Lexical structure of the language, written without reference to the lexer's code.
    A text is cut into gaps (white space and comments) and lexemes by longest match. *)
From Coq Require Import Ascii String List Bool.
Import ListNotations.
From Verif Require Import Base Lexer_Model.

(** *** Character classes *)
Definition letter (c : ascii) : Prop :=
  In c (lit "abcdefghijklmnopqrstuvwxyzABCDEFGHIJKLMNOPQRSTUVWXYZ_").
Definition digit (c : ascii) : Prop := In c (lit "0123456789").
Definition space (c : ascii) : Prop := c = " "%char \/ c = tab_char \/ c = nl_char \/ c = cr_char.

(** *** Gaps *)
(** White space and comments that end in a newline. *)
Inductive gap : text -> Prop :=
| gap_nil : gap []
| gap_space c w : space c -> gap w -> gap (c :: w)
| gap_comment body w : ~ In nl_char body -> gap w -> gap (lit "//" ++ body ++ nl_char :: w).
(** At the end of the input the last comment need not be closed. *)
Inductive last_gap : text -> Prop :=
| last_plain w : gap w -> last_gap w
| last_comment w body : gap w -> ~ In nl_char body -> last_gap (w ++ lit "//" ++ body).

(** *** Lexemes *)
Definition keyword_table : list (string * tkind) :=
  [("if", T_IF); ("elif", T_ELIF); ("else", T_ELSE); ("while", T_WHILE); ("return", T_RETURN);
   ("auto", T_AUTO); ("break", T_BREAK); ("continue", T_CONTINUE); ("true", T_BOOL); ("false", T_BOOL)]%string.
Definition symbol_table : list (string * tkind) :=
  [("+", T_PLUS); ("-", T_MINUS); ("*", T_STAR); ("/", T_SLASH); ("%", T_PERCENT); ("^", T_CARET);
   ("=", T_ASSIGN); ("+=", T_PLUS_ASSIGN); ("-=", T_MINUS_ASSIGN); ("*=", T_STAR_ASSIGN);
   ("/=", T_SLASH_ASSIGN); ("%=", T_PERCENT_ASSIGN);
   ("==", T_EQ); ("!=", T_NE); ("<", T_LT); ("<=", T_LE); (">", T_GT); (">=", T_GE);
   ("&&", T_AND); ("||", T_OR); ("!", T_NOT); ("?", T_QUESTION); (":", T_COLON);
   ("(", T_LPAREN); (")", T_RPAREN); ("{", T_LBRACE); ("}", T_RBRACE); ("[", T_LBRACKET); ("]", T_RBRACKET);
   (",", T_COMMA); (";", T_SEMICOLON); (".", T_DOT)]%string.

(** A word: a letter, then letters, digits and colons. *)
Inductive word : text -> Prop :=
| word_intro c t : letter c -> Forall (fun x => letter x \/ digit x \/ x = ":"%char) t -> word (c :: t).

(** 12   1.5   .5 *)
Inductive numeral : text -> Prop :=
| numeral_int ds : ds <> [] -> Forall digit ds -> numeral ds
| numeral_frac ds fs : Forall digit ds -> fs <> [] -> Forall digit fs -> numeral (ds ++ "."%char :: fs).
(** A numeral, optionally with a suffix _f32 *)
Inductive number : text -> Prop :=
| number_plain n : numeral n -> number n
| number_suffix n t : numeral n -> Forall (fun x => letter x \/ digit x) t -> number (n ++ "_"%char :: t).

(** The characters of a string literal: escapes are a backslash and any character. *)
Inductive str_chars : text -> Prop :=
| str_nil : str_chars []
| str_plain c t : c <> quote_char -> c <> backslash_char -> str_chars t -> str_chars (c :: t)
| str_escape c t : str_chars t -> str_chars (backslash_char :: c :: t).

Inductive lexeme : tkind -> text -> Prop :=
| lex_keyword s k : In (s, k) keyword_table -> lexeme k (lit s)
| lex_symbol s k : In (s, k) symbol_table -> lexeme k (lit s)
| lex_word t : word t -> (forall s k, In (s, k) keyword_table -> t <> lit s) -> lexeme T_IDENTIFIER t
| lex_number t : number t -> lexeme T_NUMBER t
| lex_string t : str_chars t -> lexeme T_STRING (quote_char :: t ++ [quote_char]).

(** *** Cutting a text into tokens *)
Definition starts_gap (s : text) : Prop :=
  (exists c r, s = c :: r /\ space c) \/ (exists r, s = lit "//" ++ r).
(** [t] is the longest lexeme that starts the text [t ++ rest]. *)
Definition longest (t rest : text) : Prop :=
  forall k u v, lexeme k u -> u ++ v = t ++ rest -> length u <= length t.
(** No lexeme starts the text. *)
Definition no_lexeme (s : text) : Prop := forall k u v, lexeme k u -> s <> u ++ v.

(** [lexes p s ts]: the text [s], which starts at offset [p] of the source, is the token list [ts]. *)
Inductive lexes : nat -> text -> list token -> Prop :=
| lexes_end p w : last_gap w -> lexes p w [Token T_EOF [] (p + length w)]
| lexes_token p w k t rest ts :
    gap w -> lexeme k t -> ~ starts_gap (t ++ rest) -> longest t rest ->
    lexes (p + length w + length t) rest ts ->
    lexes p (w ++ t ++ rest) (Token k t (p + length w) :: ts)
| lexes_bad p w c rest ts :
    gap w -> no_lexeme (c :: rest) -> ~ starts_gap (c :: rest) -> c <> quote_char ->
    lexes (p + length w + 1) rest ts ->
    lexes p (w ++ c :: rest) (Token T_ERROR [c] (p + length w) :: ts)
| lexes_unclosed p w rest ts :
    gap w -> no_lexeme (quote_char :: rest) ->
    lexes (p + length w + S (length rest)) [] ts ->
    lexes p (w ++ quote_char :: rest) (Token T_ERROR (quote_char :: rest) (p + length w) :: ts).

(** *** Writing tokens down *)
(** A list of lexemes, each followed by a gap that begins with white space. *)
Definition written : Type := list (tkind * text * text).
Definition well_written (ls : written) : Prop :=
  Forall (fun x => match x with (k, t, g) => lexeme k t /\ gap g /\ exists c g', g = c :: g' /\ space c end) ls.
Fixpoint written_text (ls : written) : text :=
  match ls with [] => [] | (_, t, g) :: ls' => t ++ g ++ written_text ls' end.
Fixpoint written_tokens (p : nat) (ls : written) : list token :=
  match ls with
  | [] => [Token T_EOF [] p]
  | (k, t, g) :: ls' => Token k t p :: written_tokens (p + length t + length g) ls'
  end.

(** The source rebuilt from its tokens and the gaps in front of them. *)
Fixpoint rebuild (gs : list text) (ts : list token) : text :=
  match gs, ts with
  | g :: gs', t :: ts' => g ++ tx t ++ rebuild gs' ts'
  | _, _ => []
  end.

(** *** A token stream with a cursor, and the calls a parser makes *)
Inductive call : Type :=
| CNext | CPeek | CPeekIs (k : tkind) | CExpect (k : tkind) | CConsumeIf (k : tkind).
Inductive answer : Type :=
| ATok (t : token) | ABool (b : bool) | AOpt (t : option token).

(** The stream never runs out: its last token (end of input) is returned for ever. *)
Definition cur (ts : list token) : token := hd (Token T_EOF [] 0) ts.
Definition advance (ts : list token) : list token := match ts with _ :: ((_ :: _) as r) => r | _ => ts end.

Definition answer_of (c : call) (ts : list token) : answer * list token :=
  let t := cur ts in
  match c with
  | CNext => (ATok t, advance ts)
  | CPeek => (ATok t, ts)
  | CPeekIs k => (ABool (tkind_eqb (tk t) k), ts)
  | CExpect k => (ATok (if tkind_eqb (tk t) k then t else Token T_ERROR (tx t) (tp t)), advance ts)
  | CConsumeIf k => if tkind_eqb (tk t) k then (AOpt (Some t), advance ts) else (AOpt None, ts)
  end.
Fixpoint answers (cs : list call) (ts : list token) : list answer :=
  match cs with
  | [] => []
  | c :: cs' => let (a, ts') := answer_of c ts in a :: answers cs' ts'
  end.

(** The same calls made on a lexer. *)
Definition call_lexer (c : call) (l : lexer) : outcome (answer * lexer) :=
  match c with
  | CNext => do! (t, l') <- lex_next l; Ret (ATok t, l')
  | CPeek => do! (t, l') <- lex_peek l; Ret (ATok t, l')
  | CPeekIs k => do! (b, l') <- lex_peek_is k l; Ret (ABool b, l')
  | CExpect k => do! (t, l') <- lex_expect k l; Ret (ATok t, l')
  | CConsumeIf k => do! (o, l') <- lex_consume_if k l; Ret (AOpt o, l')
  end.
Fixpoint call_lexers (cs : list call) (l : lexer) : outcome (list answer) :=
  match cs with
  | [] => Ret []
  | c :: cs' => do! (a, l') <- call_lexer c l; do! rest <- call_lexers cs' l'; Ret (a :: rest)
  end.
