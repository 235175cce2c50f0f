(** Lines of a text and positions in it. *)
From Coq Require Import Ascii List Bool Arith.
Import ListNotations.
From Verif Require Import Base Lexer_Model SrcLine_Model.

Fixpoint newlines (t : text) : nat := match t with [] => 0 | c :: t' => (if Ascii.eqb c nl then 1 else 0) + newlines t' end.
(** The characters before the first newline. *)
Fixpoint until_newline (t : text) : text :=
  match t with [] => [] | c :: t' => if Ascii.eqb c nl then [] else c :: until_newline t' end.

(** The line (counted from 1) of the character at offset p, and the offset in this line. *)
Definition line_of (src : text) (p : nat) : nat := 1 + newlines (firstn p src).
Definition column_of (src : text) (p : nat) : nat := length (until_newline (rev (firstn p src))).
(** The text of that line. *)
Definition line_text (src : text) (p : nat) : text :=
  rev (until_newline (rev (firstn p src))) ++ until_newline (skipn p src).
