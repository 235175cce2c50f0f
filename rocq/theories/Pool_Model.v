(** The pool of syntax tree nodes (ast/ast_pool.h) on top of the arena, the allocator adaptor
    (memory/allocator.h) and vectors that use it. *)
From Coq Require Import List ZArith Bool.
Import ListNotations.
From Verif Require Import Base Arena_Model.
Open Scope Z_scope.

(** What can be seen of objects: [Made k at size d]: the k-th object constructed, where, and
    whether its type has a destructor to run; [Gone k]: its destructor has run; [Recycled]: the
    arena may hand out its memory again. *)
Inductive event :=
| Made (k : nat) (at_ size : Z) (destructible : bool)
| Gone (k : nat)
| Recycled.

(** ast_pool.h:99-104: the arena and destructors_, oldest first.  An entry is the object's
    address (DestructorEntry::ptr); [objects] counts the objects constructed and [who] tells
    which object is at an address - the memory the destructor is run on. *)
Record pool := {
  mem_ : arena;
  destructors : list Z;
  objects : nat;
  who : Z -> option nat
}.

(** ast_pool.h:44. *)
Definition pool_new : pool :=
  {| mem_ := arena_new; destructors := []; objects := 0; who := fun _ => None |}.

(** ast_pool.h:54-67, New<T>: [size] is sizeof(T), [d] tells whether T is not trivially
    destructible.  Constructors and push_back that throw are not modelled. *)
Definition New (p : pool) (size : Z) (d : bool) (sys : Z -> option Z) : pool * outcome (list event) :=
  match allocate default_config (mem_ p) size sys with
  | (m, Ret at_) =>
      ({| mem_ := m;
          destructors := if d then destructors p ++ [at_] else destructors p;
          objects := S (objects p);
          who := fun x => if x =? at_ then Some (objects p) else who p x |},
       Ret [Made (objects p) at_ size d])
  | (m, r) =>
      ({| mem_ := m; destructors := destructors p; objects := objects p; who := who p |},
       match r with Err => Err | Hang => Hang | _ => UB end)
  end.

(** ast_pool.h:47, Allocate: raw memory, as vectors of nodes ask for. *)
Definition Raw (p : pool) (size : Z) (sys : Z -> option Z) : pool * outcome (list event) :=
  match allocate default_config (mem_ p) size sys with
  | (m, r) =>
      ({| mem_ := m; destructors := destructors p; objects := objects p; who := who p |},
       match r with Ret _ => Ret [] | Err => Err | Hang => Hang | UB => UB end)
  end.

(** ast_pool.h:95-98, Destroy: the destructor of whatever object is at the address; there must
    be one. *)
Definition Destroy (p : pool) (a : Z) : outcome event :=
  match who p a with Some k => Ret (Gone k) | None => UB end.

(** ast_pool.h:72-74 and 82-84: the loops over rbegin() .. rend(). *)
Fixpoint run_destructors (p : pool) (l : list Z) : outcome (list event) :=
  match l with
  | [] => Ret []
  | a :: r => do! e <- Destroy p a; do! es <- run_destructors p r; Ret (e :: es)
  end.

(** ast_pool.h:71-77, Reset. *)
Definition Reset (p : pool) : pool * outcome (list event) :=
  ({| mem_ := clear default_config (mem_ p); destructors := []; objects := objects p; who := who p |},
   do! es <- run_destructors p (rev (destructors p)); Ret (es ++ [Recycled])).

(** ast_pool.h:81-86, the destructor: the arena goes with it. *)
Definition Delete (p : pool) : outcome (list event) :=
  do! es <- run_destructors p (rev (destructors p)); Ret (es ++ [Recycled]).

Inductive pool_op :=
| PNew (size : Z) (d : bool) (sys : Z -> option Z)
| PRaw (size : Z) (sys : Z -> option Z)
| PReset.

Definition pool_step (p : pool) (o : pool_op) : pool * outcome (list event) :=
  match o with
  | PNew size d sys => New p size d sys
  | PRaw size sys => Raw p size sys
  | PReset => Reset p
  end.

(** Vectors of objects with a destructor, using the adaptor (allocator.h:36-111,
    ast_pool.h:38-40).  An element is the number of the object constructed in its place;
    [in_arena] is inner_ != nullptr. *)
Record avec := {
  in_arena : bool;
  elems : list nat;
  capacity : nat;
  next : nat            (* objects constructed so far, by this vector *)
}.

(** What a vector does: constructs and destroys objects, takes and returns memory for n
    elements. *)
Inductive vevent :=
| Constructed (k : nat)
| Destroyed (k : nat)
| Taken (n : nat)
| Returned (n : nat).

(** The constructors: an empty vector with the given allocator. *)
Definition avec_new (in_arena : bool) : avec :=
  {| in_arena := in_arena; elems := []; capacity := 0; next := 0 |}.

(** allocator.h:92-97, destroy: through inner_ (arena.h:97-104, runs the destructor), or
    nothing. *)
Definition adaptor_destroy (v : avec) (k : nat) : list vevent :=
  if in_arena v then [Destroyed k] else [].

(** allocator.h:70-84, allocate and deallocate: from the arena, which never returns memory
    (arena.h:93-95), or from std::allocator.  Taking from the arena is not noted. *)
Definition adaptor_allocate (v : avec) (n : nat) : list vevent :=
  if in_arena v then [] else [Taken n].
Definition adaptor_deallocate (v : avec) (n : nat) : list vevent :=
  if in_arena v then [] else match n with O => [] | _ => [Returned n] end.

(** emplace_back (a contract of std::vector): in place if there is room; else memory for twice
    as many, the new element, the old ones moved, the old ones destroyed, the old memory
    returned. *)
Definition emplace_back (v : avec) : avec * list vevent :=
  if Nat.ltb (length (elems v)) (capacity v) then
    ({| in_arena := in_arena v; elems := elems v ++ [next v]; capacity := capacity v;
        next := S (next v) |}, [Constructed (next v)])
  else
    let cap := match capacity v with O => 1%nat | c => (2 * c)%nat end in
    let moved := seq (S (next v)) (length (elems v)) in
    ({| in_arena := in_arena v; elems := moved ++ [next v]; capacity := cap;
        next := (S (next v) + length (elems v))%nat |},
     adaptor_allocate v cap ++ [Constructed (next v)] ++ map Constructed moved ++
     flat_map (adaptor_destroy v) (elems v) ++ adaptor_deallocate v (capacity v)).

(** clear(): destroys the elements, keeps the memory. *)
Definition avec_clear (v : avec) : avec * list vevent :=
  ({| in_arena := in_arena v; elems := []; capacity := capacity v; next := next v |},
   flat_map (adaptor_destroy v) (elems v)).

(** The destructor. *)
Definition avec_delete (v : avec) : list vevent :=
  flat_map (adaptor_destroy v) (elems v) ++ adaptor_deallocate v (capacity v).

Inductive vop := VAdd | VClear.

Definition vstep (v : avec) (o : vop) : avec * list vevent :=
  match o with VAdd => emplace_back v | VClear => avec_clear v end.

Fixpoint vrun (v : avec) (l : list vop) : avec * list vevent :=
  match l with
  | [] => (v, [])
  | o :: r => let (v', e) := vstep v o in let (v'', e') := vrun v' r in (v'', e ++ e')
  end.
