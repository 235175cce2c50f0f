(** Model of rapidudf/ast/lexer.{h,cc}.
    Source text is the list of its bytes.  [pos_] is a natural number: it never exceeds the length of
    the source, so size_t does not wrap.  Indexing the source out of range is undefined behaviour.
    The [error_] member only feeds the text of error messages and is left out. *)
From Coq Require Import Ascii String List Bool Arith.
Import ListNotations.
From Verif Require Import Base.

Definition text := list ascii.
Definition lit (s : string) : text := list_ascii_of_string s.
Fixpoint text_eqb (a b : text) : bool :=
  match a, b with
  | [], [] => true
  | x :: a', y :: b' => Ascii.eqb x y && text_eqb a' b'
  | _, _ => false
  end.

(** lexer.h:28-83, enum TokenType *)
Inductive tkind : Type :=
| T_IDENTIFIER | T_NUMBER | T_STRING | T_BOOL
| T_IF | T_ELIF | T_ELSE | T_WHILE | T_RETURN | T_AUTO | T_BREAK | T_CONTINUE
| T_PLUS | T_MINUS | T_STAR | T_SLASH | T_PERCENT | T_CARET
| T_ASSIGN | T_PLUS_ASSIGN | T_MINUS_ASSIGN | T_STAR_ASSIGN | T_SLASH_ASSIGN | T_PERCENT_ASSIGN
| T_EQ | T_NE | T_LT | T_LE | T_GT | T_GE | T_AND | T_OR | T_NOT | T_QUESTION | T_COLON
| T_LPAREN | T_RPAREN | T_LBRACE | T_RBRACE | T_LBRACKET | T_RBRACKET | T_COMMA | T_SEMICOLON | T_DOT
| T_EOF | T_ERROR.

Definition tkind_eq_dec (a b : tkind) : {a = b} + {a <> b}.
Proof. decide equality. Defined.
Definition tkind_eqb (a b : tkind) : bool := if tkind_eq_dec a b then true else false.

(** lexer.h:85-92, struct Token *)
Record token : Type := Token { tk : tkind; tx : text; tp : nat }.
Definition tis (t : token) (k : tkind) : bool := tkind_eqb (tk t) k.

(** lexer.h:94-139, class Lexer *)
Record lexer : Type := Lexer { l_src : text; l_pos : nat; l_peeked : option token }.

(** lexer.cc:25-27; char comparisons are on non-negative codes *)
Definition in_range (c lo hi : ascii) : bool :=
  (nat_of_ascii lo <=? nat_of_ascii c) && (nat_of_ascii c <=? nat_of_ascii hi).
Definition is_alpha (c : ascii) : bool :=
  in_range c "a" "z" || in_range c "A" "Z" || Ascii.eqb c "_".
Definition is_digit (c : ascii) : bool := in_range c "0" "9".
Definition is_alphanum (c : ascii) : bool := is_alpha c || is_digit c.

(** lexer.cc:29-33, kKeywords *)
Definition keywords : list (text * tkind) :=
  [ (lit "if", T_IF); (lit "elif", T_ELIF); (lit "else", T_ELSE); (lit "while", T_WHILE);
    (lit "return", T_RETURN); (lit "auto", T_AUTO); (lit "break", T_BREAK); (lit "continue", T_CONTINUE);
    (lit "true", T_BOOL); (lit "false", T_BOOL) ].
Fixpoint find_text {A} (m : list (text * A)) (t : text) : option A :=
  match m with
  | [] => None
  | (k, v) :: m' => if text_eqb k t then Some v else find_text m' t
  end.

(** source_[p] *)
Definition rd (s : text) (p : nat) : outcome ascii :=
  match nth_error s p with Some c => Ret c | None => UB end.
(** source_.substr(start, n) *)
Definition sub (s : text) (start n : nat) : text := firstn n (skipn start s).

Definition tab_char : ascii := Ascii.ascii_of_nat 9.
Definition nl_char : ascii := Ascii.ascii_of_nat 10.
Definition cr_char : ascii := Ascii.ascii_of_nat 13.
Definition quote_char : ascii := Ascii.ascii_of_nat 34.
Definition backslash_char : ascii := Ascii.ascii_of_nat 92.

(** lexer.cc:99-101, the loop skipping to the end of the line *)
Fixpoint skip_line (fuel : nat) (s : text) (p : nat) : outcome nat :=
  match fuel with
  | O => Hang
  | S fuel =>
      if p <? length s then
        do! c <- rd s p;
        if Ascii.eqb c nl_char then Ret p else skip_line fuel s (p + 1)
      else Ret p
  end.

(** lexer.cc:91-106, SkipWhitespaceAndComments *)
Fixpoint skip_ws (fuel : nat) (s : text) (p : nat) : outcome nat :=
  match fuel with
  | O => Hang
  | S fuel =>
      if p <? length s then
        do! c <- rd s p;
        if Ascii.eqb c " " || Ascii.eqb c tab_char || Ascii.eqb c nl_char || Ascii.eqb c cr_char then
          skip_ws fuel s (p + 1)
        else
          do! comment <- (if Ascii.eqb c "/" && (p + 1 <? length s)
                          then do! c1 <- rd s (p + 1); Ret (Ascii.eqb c1 "/")
                          else Ret false);
          if (comment : bool) then
            do! p' <- skip_line (S (length s)) s (p + 2);
            skip_ws fuel s p'
          else Ret p
      else Ret p
  end.

(** lexer.cc:112-122, the loop over the digits *)
Fixpoint digits (fuel : nat) (s : text) (p : nat) (has_dot : bool) : outcome nat :=
  match fuel with
  | O => Hang
  | S fuel =>
      if p <? length s then
        do! c <- rd s p;
        if is_digit c then digits fuel s (p + 1) has_dot
        else
          do! dot <- (if Ascii.eqb c "." && negb has_dot && (p + 1 <? length s)
                      then do! c1 <- rd s (p + 1); Ret (is_digit c1)
                      else Ret false);
          if (dot : bool) then digits fuel s (p + 1) true else Ret p
      else Ret p
  end.

(** Loops of the form while (pos_ < source_.size() && ok(source_[pos_])) ++pos_. *)
Fixpoint while_char (ok : ascii -> bool) (fuel : nat) (s : text) (p : nat) : outcome nat :=
  match fuel with
  | O => Hang
  | S fuel =>
      if p <? length s then
        do! c <- rd s p;
        if ok c then while_char ok fuel s (p + 1) else Ret p
      else Ret p
  end.

(** lexer.cc:108-137, ReadNumber *)
Definition read_number (s : text) (start : nat) : outcome (token * nat) :=
  do! p <- digits (S (length s)) s start false;
  do! suffix <- (if p <? length s then do! c <- rd s p; Ret (Ascii.eqb c "_") else Ret false);
  if (suffix : bool) then
    do! p' <- while_char is_alphanum (S (length s)) s (p + 1);
    Ret (Token T_NUMBER (sub s start (p' - start)) start, p')
  else Ret (Token T_NUMBER (sub s start (p - start)) start, p).

(** lexer.cc:143-150, the loop over the characters of a string literal *)
Fixpoint string_body (fuel : nat) (s : text) (p : nat) : outcome nat :=
  match fuel with
  | O => Hang
  | S fuel =>
      if p <? length s then
        do! c <- rd s p;
        if Ascii.eqb c quote_char then Ret p
        else
          let p1 := if Ascii.eqb c backslash_char then p + 1 else p in
          let p2 := if p1 <? length s then p1 + 1 else p1 in
          string_body fuel s p2
      else Ret p
  end.

(** lexer.cc:139-160, ReadString *)
Definition read_string (s : text) (start : nat) : outcome (token * nat) :=
  do! p <- string_body (S (length s)) s (start + 1);
  if p <? length s then
    Ret (Token T_STRING (sub s start (p + 1 - start)) start, p + 1)
  else Ret (Token T_ERROR (sub s start (p - start)) start, p).

(** lexer.cc:162-181, ReadIdentifierOrKeyword *)
Definition read_identifier (s : text) (start : nat) : outcome (token * nat) :=
  do! p <- while_char (fun c => is_alphanum c || Ascii.eqb c ":") (S (length s)) s (start + 1);
  let t := sub s start (p - start) in
  match find_text keywords t with
  | Some k => Ret (Token k t start, p)
  | None => Ret (Token T_IDENTIFIER t start, p)
  end.

(** The cases of lexer.cc:209-294 that look at the following character: [next] and the kinds of the
    two-character and of the one-character token. *)
Definition two_char (c : ascii) : option (ascii * tkind * tkind) :=
  if Ascii.eqb c "+" then Some ("="%char, T_PLUS_ASSIGN, T_PLUS)
  else if Ascii.eqb c "-" then Some ("="%char, T_MINUS_ASSIGN, T_MINUS)
  else if Ascii.eqb c "*" then Some ("="%char, T_STAR_ASSIGN, T_STAR)
  else if Ascii.eqb c "/" then Some ("="%char, T_SLASH_ASSIGN, T_SLASH)
  else if Ascii.eqb c "%" then Some ("="%char, T_PERCENT_ASSIGN, T_PERCENT)
  else if Ascii.eqb c "=" then Some ("="%char, T_EQ, T_ASSIGN)
  else if Ascii.eqb c "!" then Some ("="%char, T_NE, T_NOT)
  else if Ascii.eqb c "<" then Some ("="%char, T_LE, T_LT)
  else if Ascii.eqb c ">" then Some ("="%char, T_GE, T_GT)
  else if Ascii.eqb c "&" then Some ("&"%char, T_AND, T_ERROR)
  else if Ascii.eqb c "|" then Some ("|"%char, T_OR, T_ERROR)
  else None.

(** The other cases of lexer.cc:209-312. *)
Definition one_char (c : ascii) : tkind :=
  if Ascii.eqb c "^" then T_CARET
  else if Ascii.eqb c "?" then T_QUESTION
  else if Ascii.eqb c ":" then T_COLON
  else if Ascii.eqb c "(" then T_LPAREN
  else if Ascii.eqb c ")" then T_RPAREN
  else if Ascii.eqb c "{" then T_LBRACE
  else if Ascii.eqb c "}" then T_RBRACE
  else if Ascii.eqb c "[" then T_LBRACKET
  else if Ascii.eqb c "]" then T_RBRACKET
  else if Ascii.eqb c "," then T_COMMA
  else if Ascii.eqb c ";" then T_SEMICOLON
  else if Ascii.eqb c "." then T_DOT
  else T_ERROR.

(** lexer.cc:190-313, Next with no token peeked: the token and the new [pos_] *)
Definition scan_token (s : text) (pos : nat) : outcome (token * nat) :=
  do! start <- skip_ws (S (length s)) s pos;
  if length s <=? start then Ret (Token T_EOF [] start, start)
  else
    do! c <- rd s start;
    do! number <- (if is_digit c then Ret true
                   else if Ascii.eqb c "." && (start + 1 <? length s)
                   then do! c1 <- rd s (start + 1); Ret (is_digit c1)
                   else Ret false);
    if (number : bool) then read_number s start
    else if is_alpha c then read_identifier s start
    else if Ascii.eqb c quote_char then read_string s start
    else
      match two_char c with
      | Some (c2, k2, k1) =>
          do! second <- (if start + 1 <? length s then do! c1 <- rd s (start + 1); Ret (Ascii.eqb c1 c2)
                         else Ret false);
          if (second : bool) then Ret (Token k2 (sub s start 2) start, start + 2)
          else Ret (Token k1 (sub s start 1) start, start + 1)
      | None => Ret (Token (one_char c) (sub s start 1) start, start + 1)
      end.

(** lexer.cc:87, constructor *)
Definition new_lexer (s : text) : lexer := Lexer s 0 None.

(** lexer.cc:183-313, Next *)
Definition lex_next (l : lexer) : outcome (token * lexer) :=
  match l_peeked l with
  | Some t => Ret (t, Lexer (l_src l) (l_pos l) None)
  | None => do! (t, p) <- scan_token (l_src l) (l_pos l); Ret (t, Lexer (l_src l) p None)
  end.

(** lexer.cc:315-320, Peek *)
Definition lex_peek (l : lexer) : outcome (token * lexer) :=
  match l_peeked l with
  | Some t => Ret (t, l)
  | None => do! (t, l') <- lex_next l; Ret (t, Lexer (l_src l') (l_pos l') (Some t))
  end.

(** lexer.cc:322, PeekIs *)
Definition lex_peek_is (k : tkind) (l : lexer) : outcome (bool * lexer) :=
  do! (t, l') <- lex_peek l; Ret (tis t k, l').

(** lexer.cc:324-332, Expect *)
Definition lex_expect (k : tkind) (l : lexer) : outcome (token * lexer) :=
  do! (t, l') <- lex_next l;
  if tis t k then Ret (t, l') else Ret (Token T_ERROR (tx t) (tp t), l').

(** lexer.cc:334-339, ConsumeIf *)
Definition lex_consume_if (k : tkind) (l : lexer) : outcome (option token * lexer) :=
  do! (b, l') <- lex_peek_is k l;
  if (b : bool) then do! (t, l'') <- lex_next l'; Ret (Some t, l'') else Ret (None, l').

(** lexer.cc:89, IsEOF *)
Definition lex_is_eof (l : lexer) : bool := length (l_src l) <=? l_pos l.

(** A client that calls Next until the end-of-input token. *)
Fixpoint lex_all_from (fuel : nat) (l : lexer) : outcome (list token) :=
  match fuel with
  | O => Hang
  | S fuel =>
      do! (t, l') <- lex_next l;
      if tis t T_EOF then Ret [t]
      else do! ts <- lex_all_from fuel l'; Ret (t :: ts)
  end.
Definition lex_all (s : text) : outcome (list token) := lex_all_from (length s + 2) (new_lexer s).
