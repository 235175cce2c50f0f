(** Model of rapidudf/memory/folly_arena.{h,cc} (folly::Arena) and of the wrappers in
    rapidudf/memory/arena.{h,cc}.  Addresses and sizes are Z; every size_t computation wraps
    modulo 2^64.  `new char[n]` is an oracle: each request carries a function from the number of bytes
    asked for to the address the system allocator answers (None for std::bad_alloc); it is
    consulted only if the code asks for memory. *)
From Coq Require Import List ZArith Bool.
Import ListNotations.
From Verif Require Import Base.
Open Scope Z_scope.

(** sizeof(Block) and sizeof(LargeBlock) on x86-64: alignas(max_align_v = 16) with an
    8 byte hook (folly_arena.h:144-149), resp. hook + size_t (folly_arena.h:153-161). *)
Definition sizeof_Block : Z := 16.
Definition sizeof_LargeBlock : Z := 16.

Definition SIZE_MAX : Z := 2 ^ 64 - 1.

(** folly_arena.h:59-72, constructor arguments. sizeLimit 0 = kNoSizeLimit. *)
Record config := { minBlockSize : Z; sizeLimit : Z; maxAlign : Z }.

(** arena.h Arena(): folly::Arena with the defaults of folly_arena.h:193-196. *)
Definition default_config : config :=
  {| minBlockSize := 4096 - sizeof_Block; sizeLimit := 0; maxAlign := 16 |}.

(** folly_arena.h:234-244, the members.  The block lists hold, in list order, base address and
    size of the memory obtained for each block (the size of a normal block is not stored by the
    code; it is kept here to speak about ownership); currentBlock_ is the index of the block it points at, None for the
    before-begin iterator that `blocks_.last()` yields on the empty list. *)
Record arena := {
  blocks : list (Z * Z);        (* base, bytes obtained *)
  currentBlock : option nat;
  largeBlocks : list (Z * Z);   (* base, allocSize *)
  ptr : Z;
  end_ : Z;
  totalAllocatedSize : Z;
  bytesUsed : Z
}.

Definition arena_new : arena :=
  {| blocks := []; currentBlock := None; largeBlocks := []; ptr := 0; end_ := 0;
     totalAllocatedSize := 0; bytesUsed := 0 |}.

Section Conf.
Variable cf : config.

(** folly_arena.h:206-216, roundUp; None = std::bad_alloc. *)
Definition roundUp (size : Z) : option Z :=
  let maxAl := maxAlign cf - 1 in
  if SIZE_MAX - maxAl <? size then None
  else Some (Z.land (wrapu 64 (size + maxAl)) (wrapu 64 (Z.lnot maxAl))).

(** allign.h:70-83, align_ceil as used by folly_arena.h:218. *)
Definition align (p : Z) : Z :=
  Z.land (wrapu 64 (p + maxAlign cf - 1)) (wrapu 64 (- maxAlign cf)).

(** folly_arena.h:151. *)
Definition blockGoodAllocSize : Z := wrapu 64 (sizeof_Block + minBlockSize cf).

(** Block::start(), folly_arena.h:147. *)
Definition block_start (b : Z) : Z := wrapu 64 (b + sizeof_Block).

(** folly_arena.h:163-173. *)
Definition canReuseExistingBlock (a : arena) (size : Z) : bool :=
  if minBlockSize cf <? size then false
  else match currentBlock a with
       | None => false                        (* blocks_.empty() *)
       | Some i => Nat.ltb (S i) (length (blocks a))   (* currentBlock_ != blocks_.last() *)
       end.

(** folly_arena.cc:20-60, allocateSlow; [mem] is the answer of `new char[allocSize]`. *)
Definition allocateSlow (a : arena) (size : Z) (mem : Z -> option Z) : arena * outcome Z :=
  let block_body_size := Z.max size (minBlockSize cf) in
  if SIZE_MAX - sizeof_Block <? block_body_size then (a, Err)
  else
    let allocSize := block_body_size + sizeof_Block in
    if negb (sizeLimit cf =? 0) && (wrapu 64 (sizeLimit cf - totalAllocatedSize a) <? allocSize)
    then (a, Err)
    else if minBlockSize cf <? size then
      let allocSize := wrapu 64 (sizeof_LargeBlock + size) in
      match mem allocSize with
      | None => (a, Err)
      | Some b =>
          let start := align (block_start b) in
          ({| blocks := blocks a; currentBlock := currentBlock a;
              largeBlocks := largeBlocks a ++ [(b, allocSize)];
              ptr := ptr a; end_ := end_ a;
              totalAllocatedSize := wrapu 64 (totalAllocatedSize a + allocSize);
              bytesUsed := bytesUsed a |}, Ret start)
      end
    else
      let allocSize := blockGoodAllocSize in
      match mem allocSize with
      | None => (a, Err)
      | Some b =>
          let start := align (block_start b) in
          ({| blocks := blocks a ++ [(b, allocSize)]; currentBlock := Some (length (blocks a));
              largeBlocks := largeBlocks a;
              ptr := wrapu 64 (start + size);
              end_ := wrapu 64 (start + allocSize - sizeof_Block);
              totalAllocatedSize := wrapu 64 (totalAllocatedSize a + allocSize);
              bytesUsed := bytesUsed a |}, Ret start)
      end.

Definition add_used (a : arena) (n : Z) : arena :=
  {| blocks := blocks a; currentBlock := currentBlock a; largeBlocks := largeBlocks a;
     ptr := ptr a; end_ := end_ a; totalAllocatedSize := totalAllocatedSize a;
     bytesUsed := wrapu 64 (bytesUsed a + n) |}.

(** folly_arena.h:79-106, allocate.  The asserts are compiled out in release builds and
    are not modelled. *)
Definition allocate (a0 : arena) (size0 : Z) (mem : Z -> option Z) : arena * outcome Z :=
  match roundUp size0 with
  | None => (a0, Err)
  | Some size =>
      let a := add_used a0 size in
      if size <=? wrapu 64 (end_ a - ptr a) then
        ({| blocks := blocks a; currentBlock := currentBlock a; largeBlocks := largeBlocks a;
            ptr := wrapu 64 (ptr a + size); end_ := end_ a;
            totalAllocatedSize := totalAllocatedSize a; bytesUsed := bytesUsed a |}, Ret (ptr a))
      else if canReuseExistingBlock a size then
        match currentBlock a with
        | None => (a, UB)
        | Some i =>
            match nth_error (blocks a) (S i) with
            | None => (a, UB)
            | Some (b, _) =>
                let r := align (block_start b) in
                ({| blocks := blocks a; currentBlock := Some (S i); largeBlocks := largeBlocks a;
                    ptr := wrapu 64 (r + size);
                    end_ := wrapu 64 (block_start b + blockGoodAllocSize - sizeof_Block);
                    totalAllocatedSize := totalAllocatedSize a; bytesUsed := bytesUsed a |}, Ret r)
            end
        end
      else allocateSlow a size mem
  end.

(** folly_arena.h:183-191, freeLargeBlocks. *)
Definition freeLargeBlocks (a : arena) : arena :=
  {| blocks := blocks a; currentBlock := currentBlock a; largeBlocks := [];
     ptr := ptr a; end_ := end_ a;
     totalAllocatedSize := fold_left (fun t lb => wrapu 64 (t - snd lb)) (largeBlocks a) (totalAllocatedSize a);
     bytesUsed := bytesUsed a |}.

(** folly_arena.h:112-122, clear. *)
Definition clear (a0 : arena) : arena :=
  let a := freeLargeBlocks a0 in
  match blocks a with
  | [] =>
      {| blocks := blocks a; currentBlock := currentBlock a; largeBlocks := largeBlocks a;
         ptr := ptr a; end_ := end_ a; totalAllocatedSize := totalAllocatedSize a; bytesUsed := 0 |}
  | (b, _) :: _ =>
      {| blocks := blocks a; currentBlock := Some 0%nat; largeBlocks := largeBlocks a;
         ptr := align (block_start b);
         end_ := wrapu 64 (block_start b + blockGoodAllocSize - sizeof_Block);
         totalAllocatedSize := totalAllocatedSize a; bytesUsed := 0 |}
  end.

(** Histories: Allocate(n) (with the system allocator's answer) and Reset
    (arena.h:88-89).  The run also returns the answers of the Allocate calls. *)
Inductive arena_op :=
| Allocate (n : Z) (mem : Z -> option Z)
| Reset.

Definition arena_step (a : arena) (o : arena_op) : arena * outcome Z :=
  match o with
  | Allocate n mem => allocate a n mem
  | Reset => (clear a, Ret 0)
  end.
End Conf.
