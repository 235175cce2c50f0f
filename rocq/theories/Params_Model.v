(** Model of rapidudf/types/params.{h,cc}. Params objects live in a heap and are named by their index; a
    reference returned by operator[], Add or Get is the index of the object. Simplified: references stay
    valid (in C++ they are invalidated when the containing table or array grows), the two string types of
    names are one, doubles are bit patterns, and objects are not copied or destroyed. *)
From Coq Require Import List Bool Arith ZArith.
Import ListNotations.
From Verif Require Import Base Lexer_Model.

(** params.h:36-45, ParamType *)
Inductive ptype : Type := P_invalid | P_empty | P_string | P_int | P_double | P_bool | P_object | P_array.
Definition ptype_eqb (a b : ptype) : bool :=
  match a, b with
  | P_invalid, P_invalid | P_empty, P_empty | P_string, P_string | P_int, P_int | P_double, P_double
  | P_bool, P_bool | P_object, P_object | P_array, P_array => true
  | _, _ => false
  end.
(** params.h:46-55. [members]: the hash table as an association list; [array]: the elements. *)
Record pnode : Type := PNode {
  p_type : ptype; p_str : text; p_int : Z; p_dbl : Z; p_bool : bool;
  p_members : list (text * nat); p_array : list nat; p_parent : option nat }.
(** params.cc:22-26 *)
Definition fresh : pnode := PNode P_empty [] 0 0 false [] [] None.
Definition heap : Type := list pnode.
Definition node (h : heap) (a : nat) : outcome pnode := match nth_error h a with Some n => Ret n | None => UB end.
Definition store (a : nat) (n : pnode) (h : heap) : heap := firstn a h ++ n :: skipn (S a) h.
Definition with_parent p n := PNode (p_type n) (p_str n) (p_int n) (p_dbl n) (p_bool n) (p_members n) (p_array n) p.
Definition with_type t n := PNode t (p_str n) (p_int n) (p_dbl n) (p_bool n) (p_members n) (p_array n) (p_parent n).
Definition with_members m n := PNode (p_type n) (p_str n) (p_int n) (p_dbl n) (p_bool n) m (p_array n) (p_parent n).
Definition with_array l n := PNode (p_type n) (p_str n) (p_int n) (p_dbl n) (p_bool n) (p_members n) l (p_parent n).

(** A new Params object *)
Definition create (h : heap) : nat * heap := (length h, h ++ [fresh]).

(** params.cc:27-43, SetParent: with a parent already set, the parent's parent is set, and so on. *)
Fixpoint set_parent (fuel : nat) (a : nat) (p : option nat) (h : heap) : outcome heap :=
  match fuel with
  | O => Hang
  | S fuel =>
      do! n <- node h a;
      match p with
      | None => Ret (store a (with_parent None n) h)
      | Some q =>
          if a =? q then Ret h
          else match p_parent n with
               | None => Ret (store a (with_parent (Some q) n) h)
               | Some r => if r =? q then Ret h else set_parent fuel r p h
               end
      end
  end.

(** params.cc:110-120, Get: [None] is the invalid default value. *)
Fixpoint get (fuel : nat) (h : heap) (a : nat) (name : text) : outcome (option nat) :=
  match fuel with
  | O => Hang
  | S fuel =>
      do! n <- node h a;
      match find_text (p_members n) name with
      | Some c => Ret (Some c)
      | None => match p_parent n with Some q => get fuel h q name | None => Ret None end
      end
  end.
(** params.cc:184-194, Contains *)
Fixpoint contains (fuel : nat) (h : heap) (a : nat) (name : text) : outcome bool :=
  match fuel with
  | O => Hang
  | S fuel =>
      do! n <- node h a;
      if ptype_eqb (p_type n) P_object && match find_text (p_members n) name with Some _ => true | None => false end then Ret true
      else match p_parent n with Some q => contains fuel h q name | None => Ret false end
  end.

(** params.cc:80-96: the value setters; the other fields keep their values. *)
Inductive pval : Type := PStr (s : text) | PInt (z : Z) | PDbl (z : Z) | PBool (b : bool).
Definition put_value (v : pval) (n : pnode) : pnode :=
  match v with
  | PStr s => PNode P_string s (p_int n) (p_dbl n) (p_bool n) (p_members n) (p_array n) (p_parent n)
  | PInt z => PNode P_int (p_str n) z (p_dbl n) (p_bool n) (p_members n) (p_array n) (p_parent n)
  | PDbl z => PNode P_double (p_str n) (p_int n) z (p_bool n) (p_members n) (p_array n) (p_parent n)
  | PBool b => PNode P_bool (p_str n) (p_int n) (p_dbl n) b (p_members n) (p_array n) (p_parent n)
  end.
Definition set_value (a : nat) (v : pval) (h : heap) : outcome heap :=
  do! n <- node h a; Ret (store a (put_value v n) h).

(** param_type_ = PARAM_OBJECT; members_[name] *)
Definition member_ref (a : nat) (name : text) (h : heap) : outcome (nat * heap) :=
  do! n <- node h a;
  match find_text (p_members n) name with
  | Some c => Ret (c, store a (with_type P_object n) h)
  | None =>
      let (c, h) := create h in
      Ret (c, store a (with_members ((name, c) :: p_members n) (with_type P_object n)) h)
  end.
(** params.cc:149-173, Put *)
Definition put (a : nat) (name : text) (v : pval) (h : heap) : outcome heap :=
  do! (c, h) <- member_ref a name h; set_value c v h.
(** params.cc:127-134, the mutable operator[] with a name. Validity of the object found is that of its type. *)
Definition index (fuel : nat) (a : nat) (name : text) (h : heap) : outcome (nat * heap) :=
  do! r <- get fuel h a name;
  match r with
  | Some c =>
      do! n <- node h c;
      if negb (ptype_eqb (p_type n) P_invalid) then Ret (c, h) else member_ref a name h
  | None => member_ref a name h
  end.
(** std::vector::resize with new objects *)
Fixpoint create_many (k : nat) (h : heap) : list nat * heap :=
  match k with O => ([], h) | S k => let (c, h) := create h in let (l, h) := create_many k h in (c :: l, h) end.
Definition resize (l : list nat) (k : nat) (h : heap) : list nat * heap :=
  if k <=? length l then (firstn k l, h) else let (m, h) := create_many (k - length l) h in (l ++ m, h).
(** params.cc:144-148, Add *)
Definition add (a : nat) (h : heap) : outcome (nat * heap) :=
  do! n <- node h a;
  let (l, h) := resize (p_array n) (S (length (p_array n))) h in
  match nth_error l (length (p_array n)) with
  | Some c => Ret (c, store a (with_array l (with_type P_array n)) h)
  | None => UB
  end.
(** params.cc:135-143, the constant operator[] with an index *)
Definition at_index (h : heap) (a : nat) (i : nat) : outcome (option nat) :=
  do! n <- node h a;
  Ret (if ptype_eqb (p_type n) P_array then nth_error (p_array n) i else None).
(** params.cc:174-183, the mutable operator[] with an index *)
Definition index_at (a : nat) (i : nat) (h : heap) : outcome (nat * heap) :=
  do! n <- node h a;
  match (if ptype_eqb (p_type n) P_array then nth_error (p_array n) i else None) with
  | Some c => Ret (c, h)
  | None =>
      let (l, h) := resize (p_array n) (S i) h in
      match nth_error l i with
      | Some c => Ret (c, store a (with_array l (with_type P_array n)) h)
      | None => UB
      end
  end.

(** A call through the API on existing objects *)
Inductive call : Type :=
| C_new | C_parent (a : nat) (p : option nat) | C_set (a : nat) (v : pval) | C_put (a : nat) (name : text) (v : pval)
| C_index (a : nat) (name : text) | C_add (a : nat) | C_index_at (a : nat) (i : nat).
(** [fuel] bounds the walks along parents. *)
Definition exec (fuel : nat) (c : call) (h : heap) : outcome heap :=
  match c with
  | C_new => Ret (snd (create h))
  | C_parent a p =>
      match p with
      | Some q => do! _ <- node h q; set_parent fuel a p h
      | None => set_parent fuel a p h
      end
  | C_set a v => set_value a v h
  | C_put a name v => put a name v h
  | C_index a name => do! (_, h) <- index fuel a name h; Ret h
  | C_add a => do! (_, h) <- add a h; Ret h
  | C_index_at a i => do! (_, h) <- index_at a i h; Ret h
  end.
Fixpoint exec_all (fuel : nat) (cs : list call) (h : heap) : outcome heap :=
  match cs with [] => Ret h | c :: cs' => do! h <- exec fuel c h; exec_all fuel cs' h end.
