(** The arena of memory/leveldb_arena.{h,cc}: bump allocation without reset. *)
From Coq Require Import List ZArith Bool.
Import ListNotations.
From Verif Require Import Base.
Open Scope Z_scope.

(** leveldb_arena.cc:10. *)
Definition kBlockSize : Z := 4096.

(** leveldb_arena.h:40-54.  [blocks] holds (address, size): the size is not kept by the code,
    which needs only the address for delete[]. *)
Record bump := {
  alloc_ptr : Z;
  alloc_bytes_remaining : Z;
  blocks : list (Z * Z);
  memory_usage : Z
}.

(** leveldb_arena.cc:12: nullptr, 0, 0. *)
Definition bump_new : bump :=
  {| alloc_ptr := 0; alloc_bytes_remaining := 0; blocks := []; memory_usage := 0 |}.

(** leveldb_arena.cc:63-68, AllocateNewBlock; [mem] is the answer of `new char[n]`, None when
    it throws.  A push_back that throws is not modelled. *)
Definition AllocateNewBlock (a : bump) (n : Z) (mem : Z -> option Z) : bump * outcome Z :=
  match mem n with
  | None => (a, Err)
  | Some b =>
      ({| alloc_ptr := alloc_ptr a; alloc_bytes_remaining := alloc_bytes_remaining a;
          blocks := (b, n) :: blocks a;
          memory_usage := wrapu 64 (memory_usage a + wrapu 64 (n + 8)) |}, Ret b)
  end.

(** Taking [skip] and then [n] bytes from the current block: leveldb_arena.h:57-60,
    leveldb_arena.cc:33-36 and 48-50. *)
Definition take (a : bump) (skip n : Z) : bump * outcome Z :=
  ({| alloc_ptr := wrapu 64 (alloc_ptr a + n);
      alloc_bytes_remaining := wrapu 64 (alloc_bytes_remaining a - n);
      blocks := blocks a; memory_usage := memory_usage a |}, Ret (wrapu 64 (alloc_ptr a + skip))).

(** leveldb_arena.cc:20-37, AllocateFallback. *)
Definition AllocateFallback (a : bump) (bytes : Z) (mem : Z -> option Z) : bump * outcome Z :=
  if kBlockSize / 4 <? bytes then AllocateNewBlock a bytes mem
  else
    match AllocateNewBlock a kBlockSize mem with
    | (a', Ret b) =>
        take {| alloc_ptr := b; alloc_bytes_remaining := kBlockSize;
                blocks := blocks a'; memory_usage := memory_usage a' |} 0 bytes
    | (a', r) => (a', r)
    end.

(** leveldb_arena.h:51-63, Allocate.  The assert is compiled out in release builds. *)
Definition Allocate (a : bump) (bytes : Z) (mem : Z -> option Z) : bump * outcome Z :=
  if bytes <=? alloc_bytes_remaining a then take a 0 bytes
  else AllocateFallback a bytes mem.

(** leveldb_arena.cc:39-58, AllocateAligned; align is 8. *)
Definition AllocateAligned (a : bump) (bytes : Z) (mem : Z -> option Z) : bump * outcome Z :=
  let current_mod := Z.land (alloc_ptr a) 7 in
  let slop := if current_mod =? 0 then 0 else 8 - current_mod in
  let needed := wrapu 64 (bytes + slop) in
  if needed <=? alloc_bytes_remaining a then take a slop needed
  else AllocateFallback a bytes mem.

(** leveldb_arena.cc:14-18: what the destructor deletes. *)
Definition deleted (a : bump) : list Z := map fst (blocks a).

Inductive bump_op :=
| OAllocate (bytes : Z) (mem : Z -> option Z)
| OAligned (bytes : Z) (mem : Z -> option Z).

Definition bump_step (a : bump) (o : bump_op) : bump * outcome Z :=
  match o with
  | OAllocate n mem => Allocate a n mem
  | OAligned n mem => AllocateAligned a n mem
  end.
