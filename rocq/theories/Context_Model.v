(** Model of rapidudf/context/context.{h,cc}: the objects a Context owns and the vectors it allocates.
    The list of clean-ups is the one of AtomicList_Model, used here by one thread at a time; the arena is the one
    of Arena_Model, of which this file uses only that Allocate(n) hands out n bytes and that Reset recycles all of
    them. *)
From Coq Require Import List Bool Arith ZArith.
Import ListNotations.
From Verif Require Import Base Vector_Model.

(** ** Owned objects *)

(** A C++ class as far as a Context can tell: its type id (context.h:181-185, one number per type), whether its
    destructor uses memory that its constructor took from the arena of the Context, and the classes of the objects
    its destructor creates through the same Context. *)
Inductive class := Class (type_id : nat) (arena_member : bool) (spawns : list class).
Definition type_of (c : class) : nat := let (t, _, _) := c in t.

(** A clean-up function (context.h:40-45 and 149-168): it deletes the object. *)
Record cleanup := mk_cleanup { object : nat; its_class : class; its_memory : nat }.

(** context.h:187-197.  Objects are numbered as they are created; [alive] are those that exist; [cleanups] is the
    intrusive list, head first; [ptrs] is ptrs_; [memory] counts the Resets of the arena, so that a region taken
    when it was g is recycled when it is not g any more.  [destroyed] is the history of the destructors, in the
    order they ran (not a member; it is what a program can observe). *)
Record ctx := mk_ctx {
  created : nat; alive : list nat; cleanups : list cleanup; ptrs : list (nat * nat); has_nan : bool;
  memory : nat; destroyed : list nat
}.

(** context.cc:20-25. *)
Definition new_ctx : ctx := mk_ctx 0 [] [] [] false 0 [].

(** context.h:64-68 with 149-155, New<T>(...) and Own(unique_ptr<T>): the clean-up is inserted at the head. *)
Definition New (c : class) (x : ctx) : ctx * nat :=
  let p := created x in
  (mk_ctx (S p) (p :: alive x) (mk_cleanup p c (memory x) :: cleanups x) (ptrs x) (has_nan x) (memory x)
     (destroyed x), p).

Fixpoint find_ptr (m : list (nat * nat)) (t : nat) : option nat :=
  match m with
  | [] => None
  | (t', p) :: m' => if Nat.eqb t' t then Some p else find_ptr m' t
  end.
Fixpoint set_ptr (m : list (nat * nat)) (t p : nat) : list (nat * nat) :=
  match m with
  | [] => [(t, p)]
  | (t', p') :: m' => if Nat.eqb t' t then (t', p) :: m' else (t', p') :: set_ptr m' t p
  end.

Definition is_alive (x : ctx) (p : nat) : bool := existsb (Nat.eqb p) (alive x).

(** context.h:74-89, GetPtr<T>(validate, ...). [validate] is None for an empty function, else what it answers for
    the object found; it is given the pointer and looks at the object. *)
Definition GetPtr (c : class) (validate : option bool) (x : ctx) : outcome (ctx * nat) :=
  let make := let (x', p) := New c x in
              (mk_ctx (created x') (alive x') (cleanups x') (set_ptr (ptrs x') (type_of c) p) (has_nan x')
                 (memory x') (destroyed x'), p) in
  match find_ptr (ptrs x) (type_of c) with
  | Some p =>
      match validate with
      | None => Ret (x, p)
      | Some ok => if is_alive x p then if ok then Ret (x, p) else Ret make else UB
      end
  | None => Ret make
  end.

(** context.h:170-171. *)
Definition SetHasNan (v : bool) (x : ctx) : ctx :=
  mk_ctx (created x) (alive x) (cleanups x) (ptrs x) v (memory x) (destroyed x).

(** `delete pp`: the destructor runs and the object is gone. *)
Definition delete_object (k : cleanup) (x : ctx) : outcome ctx :=
  if is_alive x (object k) then
    let (_, arena_member, spawns) := its_class k in
    if arena_member && negb (Nat.eqb (its_memory k) (memory x)) then UB
    else
      let x1 := fold_left (fun y c => fst (New c y)) spawns x in
      Ret (mk_ctx (created x1) (remove Nat.eq_dec (object k) (alive x1)) (cleanups x1) (ptrs x1) (has_nan x1)
             (memory x1) (destroyed x1 ++ [object k]))
  else UB.

Fixpoint run_cleanups (l : list cleanup) (x : ctx) : outcome ctx :=
  match l with
  | [] => Ret x
  | k :: l' => do! x' <- delete_object k x ; run_cleanups l' x'
  end.

(** AtomicIntrusiveLinkedList.h:122-150, sweep: as long as the list is not empty, detach it, reverse it and call
    the function on each element.  [fuel] bounds the number of rounds: Hang when it runs out. *)
Fixpoint sweep (fuel : nat) (x : ctx) : outcome ctx :=
  match cleanups x with
  | [] => Ret x
  | l =>
      match fuel with
      | O => Hang
      | S f =>
          do! x' <- run_cleanups (rev l)
                      (mk_ctx (created x) (alive x) [] (ptrs x) (has_nan x) (memory x) (destroyed x)) ;
          sweep f x'
      end
  end.

(** context.cc:40-50, Reset(); the destructor (context.cc:32) is Reset() too.  The arena is reset before the
    clean-ups run; ptrs_ and has_nan_ stay as they are. *)
Definition Reset (fuel : nat) (x : ctx) : outcome ctx :=
  sweep fuel (mk_ctx (created x) (alive x) (cleanups x) (ptrs x) (has_nan x) (S (memory x)) (destroyed x)).

(** The calls a program makes on a Context, and what they answer: the object handed out, if any. *)
Inductive call :=
| C_new (c : class)
| C_get (c : class) (validate : option bool)
| C_nan (v : bool)
| C_reset.

Definition exec (fuel : nat) (k : call) (x : ctx) : outcome (ctx * option nat) :=
  match k with
  | C_new c => let (x', p) := New c x in Ret (x', Some p)
  | C_get c v => do! (x', p) <- GetPtr c v x ; Ret (x', Some p)
  | C_nan v => Ret (SetHasNan v x, None)
  | C_reset => do! x' <- Reset fuel x ; Ret (x', None)
  end.

Fixpoint execs (fuel : nat) (l : list call) (x : ctx) : outcome (ctx * list (option nat)) :=
  match l with
  | [] => Ret (x, [])
  | k :: l' =>
      do! (x1, a) <- exec fuel k x ;
      do! (x2, r) <- execs fuel l' x1 ;
      Ret (x2, a :: r)
  end.

(** ** Vectors *)
Local Open Scope Z_scope.

(** Element types of a Vector (vector.h:36-61), by size; Bit is one bit in the buffer and one byte as a C++ type. *)
Inductive element := E_bit | E_bytes (sizeof : Z).
Definition sizeof_element (e : element) : Z := match e with E_bit => 1 | E_bytes n => n end.
Definition is_bit (e : element) : bool := match e with E_bit => true | _ => false end.

(** allign.h:46-48 on uint32_t. *)
Definition align_to_32 (n align : Z) : Z :=
  Z.land (wrapu 32 (n + align - 1)) (wrapu 32 (Z.lnot (align - 1))).

(** (n + 7) / 8 as context.h:91-95 and 118-121 compute it, on size_t. *)
Definition bytes_for_bits (n : Z) : Z := if 0 <? n mod 8 then wrapu 64 (n / 8 + 1) else n / 8.

(** vector.h:148-149, Vector(data, size, capacity, readonly): the capacity is multiplied by the size of the
    element, on size_t. *)
Definition vector_of (e : element) (data size capacity : Z) (readonly : bool) : vec :=
  make_vec data size (wrapu 64 (capacity * sizeof_element e)) readonly.

(** context.h:91-110, NewEmptyVector<T>(n, capacity): the number of bytes taken from the arena, held in a uint32_t,
    and the vector; its data begins at offset 0 of the region. *)
Definition NewEmptyVector (e : element) (n capacity : Z) : Z * vec :=
  let byte_size := wrapu 32 (match e with E_bit => bytes_for_bits n | E_bytes s => wrapu 64 (s * n) end) in
  let byte_size := align_to_32 byte_size 8 in
  let capacity := if capacity <? n then n else capacity in
  (byte_size, vector_of e 0 n capacity false).

(** context.h:112-160, NewVector(std::vector<T>) where it copies into the arena: pointers and elements of other
    classes (8 bytes each), numbers and StringView with options.clone, std::string and std::string_view (16
    bytes each). *)
Definition NewVector (e : element) (n : Z) : Z * vec := (wrapu 64 (n * sizeof_element e), vector_of e 0 n n false).

(** context.h:127-131, the loop that fills the bits of a Vector<Bit> from a std::vector<bool>; the region is not
    initialised. *)
Fixpoint fill_bits (data : list bool) (i : Z) (mem : list Z) : outcome (list Z) :=
  match data with
  | [] => Ret mem
  | b :: data' =>
      do! byte <- load mem (i / 8) ;
      do! mem' <- store mem (i / 8) (if b then bit_set byte (i mod 8) else bit_clear byte (i mod 8)) ;
      fill_bits data' (i + 1) mem'
  end.

(** context.h:117-132, NewVector(std::vector<bool>): [garbage] is what the region holds when it is handed out. *)
Definition NewVectorBool (data : list bool) (garbage : Z -> list Z) : outcome (list Z * vec) :=
  let n := Z.of_nat (length data) in
  do! mem <- fill_bits data 0 (garbage (bytes_for_bits n)) ;
  Ret (mem, vector_of E_bit 0 n n false).
