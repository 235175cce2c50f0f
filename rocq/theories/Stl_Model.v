(** Model of rapidudf/reflect/stl.h: the methods of std containers that UDFs call. *)
From Coq Require Import List Bool Arith ZArith.
Import ListNotations.
From Verif Require Import Base StringView_Model.
Local Open Scope Z_scope.

(** stl.h:31-57, STLArgType<V>: how elements are passed to and from UDFs. [aeq]: operator== of the passed type; [no_value]:
    the passed type's [{}], which MapHelper::get returns (not STLArgType::default_value). *)
Record arg_type (V A : Type) : Type := ArgType
  { value : V -> outcome A; from : A -> outcome V; aeq : A -> A -> outcome bool; no_value : outcome A }.
Arguments ArgType {V A}. Arguments value {V A}. Arguments from {V A}. Arguments aeq {V A}. Arguments no_value {V A}.
(** stl.h:41-50: numbers and pointers are passed as they are. *)
Definition scalar_arg : arg_type Z Z := ArgType (fun v => Ret v) (fun v => Ret v) (fun a b => Ret (a =? b)) (Ret 0).
(** stl.h:51-57: std::string as StringView. [junk]: see StringView_Model.make. string_view.h:50-53: StringView() is all zero. *)
Definition string_arg (junk : list Z) : arg_type (list Z) sv :=
  ArgType (of_string junk) get_string_view sv_eq (Ret (mk_sv 0 (zeros 4) (Inlined (zeros 8)))).
(** The values of a set, seen as a map. *)
Definition unit_arg : arg_type unit unit := ArgType (fun v => Ret v) (fun v => Ret v) (fun _ _ => Ret true) (Ret tt).

Section Vector.
Variables V A : Type.
Variable T : arg_type V A.

(** stl.h:69-80, find: the loop from index [i] *)
Fixpoint find_from (i : Z) (l : list V) (a : A) : outcome Z :=
  match l with
  | [] => Ret (-1)
  | v :: l =>
      do! e <- value T v;
      do! same <- aeq T e a;
      if same then Ret (wraps 32 i) else find_from (i + 1) l a
  end.
(** [None]: a null pointer *)
Definition vec_find (vec : option (list V)) (a : A) : outcome Z :=
  match vec with None => Ret (-1) | Some l => find_from 0 l a end.
(** stl.h:81-84 *)
Definition vec_contains (vec : option (list V)) (a : A) : outcome bool :=
  do! idx <- vec_find vec a; Ret (-1 <? idx).
(** stl.h:63-68; at() throws: [Err]. A null pointer throws as well. *)
Definition vec_get (vec : option (list V)) (i : Z) : outcome A :=
  match vec with
  | None => Err
  | Some l =>
      if i <? Z.of_nat (length l) then match nth_error l (Z.to_nat i) with Some v => value T v | None => UB end else Err
  end.
(** stl.h:85: no test for null *)
Definition vec_add (vec : option (list V)) (a : A) : outcome (option (list V)) :=
  match vec with
  | None => UB
  | Some l => do! v <- from T a; Ret (Some (l ++ [v]))
  end.
(** stl.h:86-93 *)
Fixpoint update (n : nat) (x : V) (l : list V) : list V :=
  match l, n with
  | [], _ => []
  | _ :: l, O => x :: l
  | y :: l, S n => y :: update n x l
  end.
Definition vec_set (vec : option (list V)) (i : Z) (a : A) : outcome (option (list V)) :=
  match vec with
  | None => Err
  | Some l =>
      if i <? Z.of_nat (length l) then do! v <- from T a; Ret (Some (update (Z.to_nat i) v l)) else Ret (Some l)
  end.
(** stl.h:94-99 *)
Definition vec_size (vec : option (list V)) : Z := match vec with None => 0 | Some l => Z.of_nat (length l) end.
End Vector.

(** stl.h:106-129 SetHelper, stl.h:137-172 MapHelper. The std containers (not code of this repository): the keys are
    distinct, find looks for an equal key, insert and emplace leave an existing entry. A set is a map to unit. *)
Section Map.
Variables K KA V VA : Type.
Variable key_eqb : K -> K -> bool.
Variable TK : arg_type K KA.
Variable TV : arg_type V VA.
Definition std_find (k : K) (m : list (K * V)) : option V :=
  option_map snd (find (fun e => key_eqb (fst e) k) m).
Definition std_emplace (k : K) (v : V) (m : list (K * V)) : list (K * V) * bool :=
  match std_find k m with Some _ => (m, false) | None => ((k, v) :: m, true) end.
Definition map_contains (m : option (list (K * V))) (a : KA) : outcome bool :=
  match m with
  | None => Ret false
  | Some m => do! k <- from TK a; Ret (match std_find k m with Some _ => true | None => false end)
  end.
(** stl.h:146-155: a missing key gives a value-initialised result. *)
Definition map_get (m : option (list (K * V))) (a : KA) : outcome VA :=
  match m with
  | None => Err
  | Some m => do! k <- from TK a; match std_find k m with Some v => value TV v | None => no_value TV end
  end.
Definition map_insert (m : option (list (K * V))) (a : KA) (b : VA) : outcome (option (list (K * V)) * bool) :=
  match m with
  | None => Ret (None, false)
  | Some m => do! k <- from TK a; do! v <- from TV b; let (m, ok) := std_emplace k v m in Ret (Some m, ok)
  end.
Definition map_size (m : option (list (K * V))) : Z := match m with None => 0 | Some m => Z.of_nat (length m) end.
End Map.

(** stl.h:31-40: elements of class types are passed as pointers to the elements, so find compares addresses.
    A vector of objects: the address of its first element, their size and the objects. *)
Record object_vector (V : Type) : Type := Objects { base : Z; stride : Z; objects : list V }.
Arguments Objects {V}. Arguments base {V}. Arguments stride {V}. Arguments objects {V}.
Fixpoint find_address (i : Z) (addr size : Z) (n : nat) (p : Z) : outcome Z :=
  match n with
  | O => Ret (-1)
  | S n => if addr =? p then Ret (wraps 32 i) else find_address (i + 1) (addr + size) size n p
  end.
Definition objects_find {V} (v : object_vector V) (p : Z) : outcome Z :=
  find_address 0 (base v) (stride v) (length (objects v)) p.

(** ** Histories of calls *)
(** Arguments are made from values of the UDF, results are looked at the same way. *)
Inductive vec_op (V : Type) : Type :=
| VGet (i : Z) | VFind (v : V) | VContains (v : V) | VAdd (v : V) | VSet (i : Z) (v : V) | VSize.
Arguments VGet {V}. Arguments VFind {V}. Arguments VContains {V}. Arguments VAdd {V}. Arguments VSet {V}. Arguments VSize {V}.
Inductive vec_result (V : Type) : Type := RElement (v : V) | RIndex (i : Z) | RBool (b : bool) | RSize (n : Z) | RVoid.
Arguments RElement {V}. Arguments RIndex {V}. Arguments RBool {V}. Arguments RSize {V}. Arguments RVoid {V}.
Section Histories.
Variables V A : Type.
Variable T : arg_type V A.
Definition vec_step (vec : option (list V)) (o : vec_op V) : outcome (option (list V) * vec_result V) :=
  match o with
  | VGet i => do! a <- vec_get V A T vec i; do! v <- from T a; Ret (vec, RElement v)
  | VFind v => do! a <- value T v; do! i <- vec_find V A T vec a; Ret (vec, RIndex i)
  | VContains v => do! a <- value T v; do! b <- vec_contains V A T vec a; Ret (vec, RBool b)
  | VAdd v => do! a <- value T v; do! vec <- vec_add V A T vec a; Ret (vec, RVoid)
  | VSet i v => do! a <- value T v; do! vec <- vec_set V A T vec i a; Ret (vec, RVoid)
  | VSize => Ret (vec, RSize (vec_size V vec))
  end.
Fixpoint vec_run (vec : option (list V)) (os : list (vec_op V)) : outcome (option (list V) * list (vec_result V)) :=
  match os with
  | [] => Ret (vec, [])
  | o :: os => do! (vec, r) <- vec_step vec o; do! (vec, rs) <- vec_run vec os; Ret (vec, r :: rs)
  end.
End Histories.
Inductive map_op (K V : Type) : Type := MContains (k : K) | MGet (k : K) | MInsert (k : K) (v : V) | MSize.
Arguments MContains {K V}. Arguments MGet {K V}. Arguments MInsert {K V}. Arguments MSize {K V}.
Section MapHistories.
Variables K KA V VA : Type.
Variable key_eqb : K -> K -> bool.
Variable TK : arg_type K KA.
Variable TV : arg_type V VA.
Definition map_step (m : option (list (K * V))) (o : map_op K V) : outcome (option (list (K * V)) * vec_result V) :=
  match o with
  | MContains k => do! a <- value TK k; do! b <- map_contains K KA V key_eqb TK m a; Ret (m, RBool b)
  | MGet k => do! a <- value TK k; do! b <- map_get K KA V VA key_eqb TK TV m a; do! v <- from TV b; Ret (m, RElement v)
  | MInsert k v =>
      do! a <- value TK k; do! b <- value TV v;
      do! (m, ok) <- map_insert K KA V VA key_eqb TK TV m a b; Ret (m, RBool ok)
  | MSize => Ret (m, RSize (map_size K V m))
  end.
Fixpoint map_run (m : option (list (K * V))) (os : list (map_op K V)) : outcome (option (list (K * V)) * list (vec_result V)) :=
  match os with
  | [] => Ret (m, [])
  | o :: os => do! (m, r) <- map_step m o; do! (m, rs) <- map_run m os; Ret (m, r :: rs)
  end.
End MapHistories.
