(** Model of the source lines of rapidudf/ast/context.cc: 93-133. *)
From Coq Require Import Ascii List Bool ZArith.
Import ListNotations.
From Verif Require Import Base Lexer_Model.
Local Open Scope Z_scope.

Definition nl : ascii := nl_char.
(** context.cc:93-98, EnsureSourceLines. absl::StrSplit by a character, after its documentation: the pieces
    between the delimiters, one more than there are delimiters. *)
Fixpoint source_lines (src : text) : list text :=
  match src with
  | [] => [[]]
  | c :: src' =>
      if Ascii.eqb c nl then [] :: source_lines src'
      else match source_lines src' with [] => [[c]] | l :: ls => (c :: l) :: ls end
  end.
Definition size (t : text) : Z := Z.of_nat (length t).

(** context.cc:111-118 and 124-131: the loop shared by GetLineNo and GetErrorLine; cursor and lineno are uint32_t,
    cursor + line.size() is size_t. The line that is found, and the line number at the end. *)
Fixpoint find_line (pos cursor lineno : Z) (lines : list text) : option text * Z :=
  match lines with
  | [] => (None, lineno)
  | l :: ls =>
      if pos <=? wrapu 64 (cursor + size l) then (Some l, lineno)
      else find_line pos (wrapu 32 (cursor + size l)) (wrapu 32 (lineno + 1)) ls
  end.

(** context.cc:108-120 *)
Definition get_line_no (src : text) (pos : Z) : Z := wraps 32 (snd (find_line pos 0 1 (source_lines src))).
(** context.cc:121-133. [None] stands for the message without a line. *)
Definition get_error_line (src : text) (pos : Z) : option (Z * text) :=
  match find_line pos 0 1 (source_lines src) with
  | (Some l, n) => Some (n, l)
  | (None, _) => None
  end.
(** context.cc:100-107 *)
Definition get_source_line (src : text) (line : Z) : text :=
  let idx := line - 1 in
  if (0 <=? idx) && (idx <? Z.of_nat (length (source_lines src))) then nth (Z.to_nat idx) (source_lines src) [] else [].
