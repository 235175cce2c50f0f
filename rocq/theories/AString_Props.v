(** C88: strings whose bytes are in an arena. *)
From Coq Require Import List Arith.
Import ListNotations.
From Verif Require Import Base AString_Spec AString_Model AString_Proofs.

(** Every program that uses strings of several arenas sees texts, sizes and arenas as if the strings
    were values that are in the arena of the string whose text they were given, as long as it does not use a
    string of an arena that was reset.  No string changes another one, and no step is undefined. *)
Theorem C88_strings_are_values_in_an_arena : forall sso ops l,
  meaning follows ops = Some l -> run sso ops = Ret l.
Proof. exact run_follows. Qed.
Print Assumptions C88_strings_are_values_in_an_arena.

(** A string made in an arena stays in it, if it is only assigned or moved strings of that arena.  Missing:
    the other moves and assignments, see below. *)
Theorem C88_strings_stay_in_their_arena_partial : forall sso ops l,
  meaning one_arena ops = Some l -> meaning stays ops = Some l /\ run sso ops = Ret l.
Proof. exact run_one_arena. Qed.
Print Assumptions C88_strings_stay_in_their_arena_partial.

(** A string constructed from a moved one with the allocator of an arena need not be in that arena: the
    program resets the arena of the moved string only, and reading the new string is undefined. *)
Theorem C88_moved_into_an_arena_refuted : forall sso, exists ops l,
  (forall o, In o ops -> match o with Assign _ _ | MoveAssign _ _ => False | _ => True end) /\
  meaning stays ops = Some l /\ run sso ops = UB.
Proof. exact move_refuted. Qed.
Print Assumptions C88_moved_into_an_arena_refuted.

(** A string that is assigned one of another arena leaves its arena. *)
Theorem C88_assigned_strings_refuted : forall sso, exists ops l,
  (forall o, In o ops -> match o with MoveInto _ _ _ => False | _ => True end) /\
  meaning stays ops = Some l /\ run sso ops = UB.
Proof. exact assign_refuted. Qed.
Print Assumptions C88_assigned_strings_refuted.

(** The arena a string says it is in is the one its text depends on: after any program, resetting that
    arena makes reading a text that does not fit in the object undefined. *)
Theorem C88_the_arena_of_a_long_text : forall sso ops x l w a,
  meaning follows (ops ++ [Read x; ArenaOf x]) = Some (l ++ [SawText w; SawArena a]) -> sso < length w ->
  run sso (ops ++ [Reset a; Read x]) = UB.
Proof. exact run_dead. Qed.
Print Assumptions C88_the_arena_of_a_long_text.

Example C88_ex_program : meaning one_arena program = Some [SawText (lit 20 ++ lit 30 ++ lit 1); SawSize 51; SawArena 1].
Proof. vm_compute. reflexivity. Qed.
Example C88_ex_moved : run 15 [Make 0 0 (lit 20); MoveInto 1 0 1; ArenaOf 1; Read 0] = Ret [SawArena 0; SawText (lit 20)].
Proof. vm_compute. reflexivity. Qed.
Example C88_ex_short : run 15 [Make 0 0 (lit 5); MoveInto 1 0 1; Reset 0; Read 1] = Ret [SawText (lit 5)].
Proof. vm_compute. reflexivity. Qed.
