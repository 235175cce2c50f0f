(** Reading bits and windows of a buffer, independently of the vector code. *)
From Coq Require Import List ZArith Bool.
Import ListNotations.
Local Open Scope Z_scope.

(** Bit [i] of a byte buffer whose bits are numbered from the least significant bit of byte 0. *)
Definition bit_of (mem : list Z) (i : Z) : bool :=
  Z.testbit (nth (Z.to_nat (i / 8)) mem 0) (i mod 8).

(** Every value of the buffer is a byte. *)
Definition byte_buffer (mem : list Z) : Prop := Forall (fun b => 0 <= b < 256) mem.

(** The elements [pos, pos+len) of a list. *)
Definition window {A} (l : list A) (pos len : Z) : list A :=
  firstn (Z.to_nat len) (skipn (Z.to_nat pos) l).
