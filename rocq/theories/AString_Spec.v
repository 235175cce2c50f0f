(** Specification vocabulary for strings whose bytes are in an arena. *)
From Coq Require Import List Arith Bool.
Import ListNotations.

(** Strings and arenas have numbers; a text is a list of bytes. *)
Definition text := list nat.

(** What a program does with the strings. *)
Inductive op :=
| Make (x a : nat) (w : text)       (* String x(begin, end, allocator of a) *)
| CopyTo (x y : nat)                (* String x(y), and String x(std::move(y)) *)
| CopyInto (x y a : nat)            (* String x(y, allocator of a) *)
| MoveInto (x y a : nat)            (* String x(std::move(y), allocator of a); a.New<String>(std::move(y)) *)
| Assign (x y : nat)                (* x = y *)
| MoveAssign (x y : nat)            (* x = std::move(y) *)
| AssignText (x : nat) (w : text)   (* x = std::string(...) *)
| Append (x : nat) (w : text)       (* x.append(...) *)
| Clear (x : nat)                   (* x.clear() *)
| Reset (a : nat)                   (* a.Reset() *)
| Read (x : nat)                    (* the characters of x *)
| Size (x : nat)                    (* x.size() *)
| ArenaOf (x : nat).                (* x.get_allocator() *)

Inductive obs := SawText (w : text) | SawSize (n : nat) | SawArena (a : nat).

(** Values: every string has a text and is in one arena. *)
Definition values := nat -> option (text * nat).
Definition vset (V : values) (x : nat) (v : text * nat) : values :=
  fun z => if z =? x then Some v else V z.

(** What the operations mean for values.  A string that was made in arena [own] and is given the
    text of a string in arena [src] is then in arena [home own src] (None: not allowed).  The strings of an
    arena that is reset may not be used again.  A moved-from string of the same arena has the old text of the
    other one; one of a different arena is not changed.  None: the program may not do this. *)
Definition vstep (home : nat -> nat -> option nat) (V : values) (o : op) : option (values * list obs) :=
  match o with
  | Make x a w => Some (vset V x (w, a), [])
  | CopyTo x y =>
      if x =? y then None else match V y with Some v => Some (vset V x v, []) | None => None end
  | CopyInto x y a =>
      if x =? y then None else match V y with Some (w, _) => Some (vset V x (w, a), []) | None => None end
  | MoveInto x y a =>
      if x =? y then None else
      match V y with
      | Some (w, src) =>
          match home a src with
          | Some h => Some (vset (if a =? src then vset V y ([], src) else V) x (w, h), [])
          | None => None
          end
      | None => None
      end
  | Assign x y =>
      match V x, V y with
      | Some (_, own), Some (w, src) =>
          match home own src with Some h => Some (vset V x (w, h), []) | None => None end
      | _, _ => None
      end
  | MoveAssign x y =>
      match V x, V y with
      | Some (old, own), Some (w, src) =>
          match home own src with
          | Some h => Some (vset (if own =? src then vset V y (old, src) else V) x (w, h), [])
          | None => None
          end
      | _, _ => None
      end
  | AssignText x w => match V x with Some (_, a) => Some (vset V x (w, a), []) | None => None end
  | Append x w => match V x with Some (v, a) => Some (vset V x (v ++ w, a), []) | None => None end
  | Clear x => match V x with Some (_, a) => Some (vset V x ([], a), []) | None => None end
  | Reset a => Some (fun x => match V x with Some (w, b) => if b =? a then None else Some (w, b) | None => None end, [])
  | Read x => match V x with Some (w, _) => Some (V, [SawText w]) | None => None end
  | Size x => match V x with Some (w, _) => Some (V, [SawSize (length w)]) | None => None end
  | ArenaOf x => match V x with Some (_, a) => Some (V, [SawArena a]) | None => None end
  end.

(** What a program that starts without strings sees. *)
Fixpoint vrun (home : nat -> nat -> option nat) (V : values) (ops : list op) : option (list obs) :=
  match ops with
  | [] => Some []
  | o :: ops' =>
      match vstep home V o with
      | Some (V', l) => match vrun home V' ops' with Some l' => Some (l ++ l') | None => None end
      | None => None
      end
  end.
Definition meaning (home : nat -> nat -> option nat) (ops : list op) : option (list obs) := vrun home (fun _ => None) ops.

(** A string stays in the arena it was made in. *)
Definition stays (own src : nat) : option nat := Some own.
(** A string goes to the arena of the string it is given the text of. *)
Definition follows (own src : nat) : option nat := Some src.
(** Programs that move and assign strings of one arena only. *)
Definition one_arena (own src : nat) : option nat := if own =? src then Some own else None.
