(** Model of rapidudf/memory/arena_string.h: strings whose bytes are in an arena.  The base class,
    std::basic_string, is the one of libstdc++: texts of at most [sso] characters are kept in the object
    itself, longer ones in a block of the allocator's arena.  Simplified: the terminating zero is not a
    byte of the text; the objects themselves are not in an arena; the strings are used by one thread. *)
From Coq Require Import List Arith Bool.
Import ListNotations.
From Verif Require Import Base AString_Spec.

(** A block of an arena (Arena_Model: blocks that are handed out do not overlap).  [b_live]: the arena was
    not reset since. *)
Record block := mk_block { b_arena : nat; b_live : bool; b_bytes : text }.

(** Where the bytes of a string are: _M_local_buf, or _M_p with _M_allocated_capacity. *)
Inductive place := Local (bytes : text) | Block (id cap : nat).
(** _Alloc_hider, _M_string_length.  arena_string.h:23: no members of its own. *)
Record str := mk_str { s_alloc : nat; s_place : place; s_len : nat }.
Record world := mk_world { blocks : list block; strs : nat -> option str }.

Definition set_str (W : world) (x : nat) (s : str) : world :=
  mk_world (blocks W) (fun z => if z =? x then Some s else strs W z).

Fixpoint set_nth {A} (l : list A) (k : nat) (x : A) : list A :=
  match l, k with
  | [], _ => []
  | _ :: l', O => x :: l'
  | y :: l', S k' => y :: set_nth l' k' x
  end.

(** [n] bytes are written at offset [off]. *)
Definition put (off : nat) (w old : text) : text := firstn off old ++ w ++ skipn (off + length w) old.

Definition capacity (sso : nat) (p : place) : nat := match p with Local _ => sso | Block _ cap => cap end.

(** The characters data()[0 .. size()). *)
Definition load (bs : list block) (s : str) : outcome text :=
  match s_place s with
  | Local b => Ret (firstn (s_len s) b)
  | Block id _ =>
      match nth_error bs id with
      | Some b => if b_live b then Ret (firstn (s_len s) (b_bytes b)) else UB
      | None => UB
      end
  end.

(** Writing [w] at data()+off, then _M_set_length(off + length w).  Undefined beyond the capacity. *)
Definition store (sso : nat) (bs : list block) (s : str) (off : nat) (w : text) : outcome (list block * str) :=
  if capacity sso (s_place s) <? off + length w then UB else
  match s_place s with
  | Local b => Ret (bs, mk_str (s_alloc s) (Local (put off w b)) (off + length w))
  | Block id cap =>
      match nth_error bs id with
      | Some b =>
          if b_live b then
            Ret (set_nth bs id (mk_block (b_arena b) true (put off w (b_bytes b))),
                 mk_str (s_alloc s) (Block id cap) (off + length w))
          else UB
      | None => UB
      end
  end.

(** _M_create, _M_data: allocator.h:74-79, arena.h:141, 150: a block of the arena, not
    initialised.  The old one goes to deallocate, which does nothing (arena.h:147-149). *)
Definition create (bs : list block) (a cap : nat) : list block * str :=
  (bs ++ [mk_block a true []], mk_str a (Block (length bs) cap) 0).

(** _M_assign, _M_replace of everything: in place if there is room, else in a new block. *)
Definition assign_text (sso : nat) (bs : list block) (s : str) (w : text) : outcome (list block * str) :=
  if length w <=? capacity sso (s_place s) then store sso bs s 0 w
  else
    let '(bs, s) := create bs (s_alloc s) (Nat.max (length w) (2 * capacity sso (s_place s))) in
    store sso bs s 0 w.

(** _M_append. *)
Definition append_text (sso : nat) (bs : list block) (s : str) (w : text) : outcome (list block * str) :=
  let n := s_len s + length w in
  if n <=? capacity sso (s_place s) then store sso bs s (s_len s) w
  else
    do! old <- load bs s;
    let '(bs, s) := create bs (s_alloc s) (Nat.max n (2 * capacity sso (s_place s))) in
    store sso bs s 0 (old ++ w).

(** basic_string(begin, end, allocator). *)
Definition construct (sso : nat) (bs : list block) (a : nat) (w : text) : outcome (list block * str) :=
  if length w <=? sso then store sso bs (mk_str a (Local []) 0) 0 w
  else let '(bs, s) := create bs a (length w) in store sso bs s 0 w.

(** basic_string(allocator). *)
Definition empty (a : nat) : str := mk_str a (Local []) 0.

(** basic_string::operator=(const basic_string&) for another object: allocator.h:51,
    propagate_on_container_copy_assignment, so the allocator is assigned too, and memory of the old one is
    given up before. *)
Definition base_assign (sso : nat) (bs : list block) (s t : str) : outcome (list block * str) :=
  let '(bs, s) :=
    match s_place s with
    | Block _ _ =>
        if s_alloc s =? s_alloc t then (bs, s)
        else if s_len t <=? sso then (bs, empty (s_alloc s))
        else create bs (s_alloc t) (s_len t)
    | Local _ => (bs, s)
    end in
  let s := mk_str (s_alloc t) (s_place s) (s_len s) in
  do! w <- load bs t;
  assign_text sso bs s w.

(** Running an operation on the string [x]. *)
Definition with_str (W : world) (x : nat) (f : str -> outcome (world * list obs)) : outcome (world * list obs) :=
  match strs W x with Some s => f s | None => UB end.
Definition update (W : world) (x : nat) (r : outcome (list block * str)) : outcome (world * list obs) :=
  do! (bs, s) <- r; Ret (set_str (mk_world bs (strs W)) x s, []).

(** arena_string.h:56-59, operator=(const BasicString&). *)
Definition copy_assign (sso : nat) (W : world) (x y : nat) (s t : str) : outcome (world * list obs) :=
  if x =? y then Ret (W, []) else update W x (base_assign sso (blocks W) s t).

(** arena_string.h:61-68, operator=(BasicString&&), and 70-73, swap. *)
Definition move_assign (sso : nat) (W : world) (x y : nat) (s t : str) : outcome (world * list obs) :=
  if s_alloc s =? s_alloc t then Ret (set_str (set_str W y s) x t, [])
  else copy_assign sso W x y s t.

(** One operation.  A constructor that is given the object itself: undefined. *)
Definition step (sso : nat) (W : world) (o : op) : outcome (world * list obs) :=
  match o with
  | Make x a w => update W x (construct sso (blocks W) a w)
  | CopyTo x y =>                       (* arena_string.h:43; no move constructor is declared *)
      if x =? y then UB else
      with_str W y (fun t => copy_assign sso (set_str W x (empty (s_alloc t))) x y (empty (s_alloc t)) t)
  | CopyInto x y a =>                   (* arena_string.h:31, 45-48, basic_string(const basic_string&, allocator) *)
      if x =? y then UB else
      with_str W y (fun t => do! w <- load (blocks W) t; update W x (construct sso (blocks W) a w))
  | MoveInto x y a =>                   (* arena_string.h:40-42 *)
      if x =? y then UB else
      with_str W y (fun t => move_assign sso (set_str W x (empty a)) x y (empty a) t)
  | Assign x y => with_str W x (fun s => with_str W y (fun t => copy_assign sso W x y s t))
  | MoveAssign x y => with_str W x (fun s => with_str W y (fun t => move_assign sso W x y s t))
  | AssignText x w =>                   (* arena_string.h:50-54 *)
      with_str W x (fun s => update W x (assign_text sso (blocks W) s w))
  | Append x w => with_str W x (fun s => update W x (append_text sso (blocks W) s w))
  | Clear x => with_str W x (fun s => update W x (store sso (blocks W) s 0 []))
  | Reset a =>                          (* arena.cc:35-40 *)
      Ret (mk_world (map (fun b => if b_arena b =? a then mk_block (b_arena b) false (b_bytes b) else b) (blocks W))
                    (strs W), [])
  | Read x => with_str W x (fun s => do! w <- load (blocks W) s; Ret (W, [SawText w]))
  | Size x => with_str W x (fun s => Ret (W, [SawSize (s_len s)]))
  | ArenaOf x => with_str W x (fun s => Ret (W, [SawArena (s_alloc s)]))
  end.

Fixpoint run_from (sso : nat) (W : world) (ops : list op) : outcome (list obs) :=
  match ops with
  | [] => Ret []
  | o :: ops' => do! (W, l) <- step sso W o; do! l' <- run_from sso W ops'; Ret (l ++ l')
  end.

(** A program that starts without strings. *)
Definition run (sso : nat) (ops : list op) : outcome (list obs) := run_from sso (mk_world [] (fun _ => None)) ops.
