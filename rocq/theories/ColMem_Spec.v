(** What a vector of elements is, independently of how a column keeps them. *)
From Coq Require Import List ZArith.
Import ListNotations.
From Verif Require Import Base ColMem_Model.
Local Open Scope Z_scope.

(** The elements of a vector are [l]. *)
Definition holds (k : kind) (h : heap) (v : vector) (l : list cell) : Prop :=
  v_size v = Z.of_nat (length l) /\ forall i x, nth_error l i = Some x -> get k h v (Z.of_nat i) = Ret x.

(** An element of the type: a bool, or as many bytes as the type has (at least one). *)
Definition is_byte (b : Z) : Prop := 0 <= b < 256.
Definition typed (k : kind) (x : cell) : Prop :=
  match k, x with
  | KBit, CBit _ => True
  | KBytes w, CBytes l => length l = w /\ Forall is_byte l /\ (0 < w)%nat
  | _, _ => False
  end.
(** Fields of at most 2^30 - 1 rows. *)
Definition rows (k : kind) (l : list cell) : Prop := Forall (typed k) l /\ Z.of_nat (length l) < 2 ^ 30.

(** The bits [n] elements need. *)
Definition bits_for (k : kind) (n : Z) : Z := match k with KBit => n | KBytes w => 8 * (Z.of_nat w * n) end.
(** The bytes [n] elements need. *)
Definition room (k : kind) (n : nat) : Z := (bits_for k (Z.of_nat n) + 7) / 8.
(** A vector in memory of the user, which has room for its elements. *)
Definition in_user_memory (k : kind) (h : heap) (v : vector) : Prop :=
  0 <= v_size v < 2 ^ 30 /\
  exists b mem, v_data v = Some b /\ nth_error h b = Some (mk_block mem false false) /\ bits_for k (v_size v) <= 8 * Z.of_nat (length mem).

(** A use of the column that gives Set only vectors in the user's own memory. *)
Fixpoint careful (garbage : nat -> nat -> Z) (k : kind) (l : list op) (w : heap * column) : Prop :=
  match l with
  | [] => True
  | o :: l' =>
      match o with
      | Load x => rows k x
      | Sets v => in_user_memory k (fst w) v
      | UserMemory mem => Forall is_byte mem
      | _ => True
      end /\ forall w', step garbage k o w = Ret w' -> careful garbage k l' w'
  end.

(** A use without Set, in which fewer bytes than [most] are ever needed. *)
Definition small (k : kind) (most : Z) (o : op) : Prop :=
  match o with
  | Load x => rows k x /\ room k (length x) < most
  | Sets _ => False
  | UserMemory mem => Forall is_byte mem
  | _ => True
  end.
