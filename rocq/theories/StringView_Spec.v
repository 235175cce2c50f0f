(** Byte strings: what StringView is supposed to compare. *)
From Coq Require Import List ZArith Bool.
Import ListNotations.
Local Open Scope Z_scope.

(** A byte string: values 0..255. *)
Definition bytes (s : list Z) : Prop := Forall (fun b => 0 <= b < 256) s.

(** Unsigned lexicographic order; a proper prefix is smaller. *)
Fixpoint lex (a b : list Z) : comparison :=
  match a, b with
  | [], [] => Eq
  | [], _ :: _ => Lt
  | _ :: _, [] => Gt
  | x :: a', y :: b' => match Z.compare x y with Eq => lex a' b' | c => c end
  end.

(** A signed integer result agrees with a comparison. *)
Definition sign_is (r : Z) (c : comparison) : Prop := (r ?= 0) = c.

Definition is_prefix (p s : list Z) : Prop := exists t, s = p ++ t.
Definition is_suffix (p s : list Z) : Prop := exists t, s = t ++ p.
Definition is_substring (p s : list Z) : Prop := exists a b, s = a ++ p ++ b.

(** ASCII lower case of a byte. *)
Definition lower (c : Z) : Z := if (65 <=? c) && (c <=? 90) then c + 32 else c.
Definition lowers (s : list Z) : list Z := map lower s.
