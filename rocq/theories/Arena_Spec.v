(** What a user of the arena relies on, in terms of byte ranges. *)
From Coq Require Import List ZArith.
Import ListNotations.
From Verif Require Import Base Arena_Model.
Open Scope Z_scope.

(** A byte range: first address, length. *)
Definition region := (Z * Z)%type.

Definition disjoint (r s : region) : Prop :=
  fst r + snd r <= fst s \/ fst s + snd s <= fst r.

Definition inside (r s : region) : Prop :=
  fst s <= fst r /\ fst r + snd r <= fst s + snd s.

Definition pairwise_disjoint (l : list region) : Prop := ForallOrdPairs disjoint l.

(** The memory the arena currently owns, as handed out by the system allocator. *)
Definition owned (a : arena) : list region := blocks a ++ largeBlocks a.

(** What is assumed of `new char[n]`: a nonzero, 16-byte aligned address of a region inside
    the address space which overlaps nothing the arena owns. *)
Definition system_answer_ok (a : arena) (mem : Z -> option Z) : Prop :=
  forall n b, 0 <= n -> mem n = Some b ->
    0 < b /\ (16 | b) /\ b + n < 2 ^ 64 /\ Forall (disjoint (b, n)) (owned a).

(** Live regions: those returned (with the requested length) since the last Reset. *)
Definition live_after (o : arena_op) (res : outcome Z) (live : list region) : list region :=
  match o, res with
  | Reset, _ => []
  | Allocate n _, Ret p => (p, n) :: live
  | _, _ => live
  end.

(** Configurations: alignment a power of two up to what `new` guarantees (the default
    is 16), block size and limit representable. *)
Definition config_ok (cf : config) : Prop :=
  0 < maxAlign cf /\ (maxAlign cf | 16) /\
  0 <= minBlockSize cf /\ minBlockSize cf + 16 < 2 ^ 64 /\ 0 <= sizeLimit cf < 2 ^ 64.

Definition op_ok (a : arena) (o : arena_op) : Prop :=
  match o with
  | Allocate n mem => 0 < n < 2 ^ 64 /\ system_answer_ok a mem
  | Reset => True
  end.

(** Histories from the fresh arena: reachable state and live regions. *)
Inductive history (cf : config) : arena -> list region -> Prop :=
| h_new : history cf arena_new []
| h_step : forall a live o a' res,
    history cf a live -> op_ok a o ->
    arena_step cf a o = (a', res) ->
    history cf a' (live_after o res live).

(** The same, when no Allocate fails. *)
Inductive history_ok (cf : config) : arena -> list region -> Prop :=
| ho_new : history_ok cf arena_new []
| ho_step : forall a live o a' p,
    history_ok cf a live -> op_ok a o ->
    arena_step cf a o = (a', Ret p) ->
    history_ok cf a' (live_after o (Ret p) live).

(** n rounded up to a multiple of al. *)
Definition ceil_to (al n : Z) : Z := (n + al - 1) / al * al.

(** The sum of the sizes of a list of regions. *)
Definition total (l : list region) : Z := fold_right (fun r s => snd r + s) 0 l.

Definition total_rounded (al : Z) (l : list region) : Z :=
  fold_right (fun r s => ceil_to al (snd r) + s) 0 l.
