(** Vocabulary for C59: what calls on a vector or a map answer, in terms of lists and of the history of insertions. *)
From Coq Require Import List Bool Arith ZArith.
Import ListNotations.
From Verif Require Import Base StringView_Spec Stl_Model.
Local Open Scope Z_scope.

(** [i] is the position of the first [v] in [l]. *)
Definition first_at {V} (l : list V) (v : V) (i : Z) : Prop :=
  0 <= i /\ nth_error l (Z.to_nat i) = Some v /\ forall j, (j < Z.to_nat i)%nat -> nth_error l j <> Some v.
(** [l'] is [l] with position [i] set to [v]; writing outside changes nothing. *)
Definition set_at {V} (l : list V) (i : Z) (v : V) (l' : list V) : Prop :=
  length l' = length l /\
  forall j, nth_error l' j = if (Z.of_nat j =? i) && (i <? Z.of_nat (length l)) then Some v else nth_error l j.
(** What one call does to the vector [l] and answers. *)
Definition vec_call {V} (l : list V) (o : vec_op V) (l' : list V) (r : vec_result V) : Prop :=
  match o, r with
  | VGet i, RElement v => l' = l /\ nth_error l (Z.to_nat i) = Some v
  | VFind v, RIndex i => l' = l /\ (first_at l v i \/ (i = -1 /\ ~ In v l))
  | VContains v, RBool b => l' = l /\ (b = true <-> In v l)
  | VAdd v, RVoid => l' = l ++ [v]
  | VSet i v, RVoid => set_at l i v l'
  | VSize, RSize n => l' = l /\ n = Z.of_nat (length l)
  | _, _ => False
  end.
Inductive vec_calls {V} : list V -> list (vec_op V) -> list V -> list (vec_result V) -> Prop :=
| calls_nil l : vec_calls l [] l []
| calls_cons l o l1 r os l2 rs : vec_call l o l1 r -> vec_calls l1 os l2 rs -> vec_calls l (o :: os) l2 (r :: rs).

(** The elements can be passed: they arrive as they were, and are equal iff the passed ones are. *)
Definition passable {V A} (T : arg_type V A) (P : V -> Prop) : Prop :=
  (forall v, P v -> exists a, value T v = Ret a /\ from T a = Ret v) /\
  (forall v w a b, P v -> P w -> value T v = Ret a -> value T w = Ret b ->
     exists r, aeq T a b = Ret r /\ (r = true <-> v = w)).
Definition short_string (s : list Z) : Prop := bytes s /\ Z.of_nat (length s) < 2 ^ 32.
(** The values a call mentions. *)
Definition op_value {V} (P : V -> Prop) (o : vec_op V) : Prop :=
  match o with VFind v | VContains v | VAdd v | VSet _ v => P v | _ => True end.
(** Positions read are inside the vector when they are read: [n] elements at first, growing with every add. *)
Fixpoint in_range {V} (n : Z) (os : list (vec_op V)) : Prop :=
  match os with
  | [] => True
  | VGet i :: os => 0 <= i < n /\ in_range n os
  | VSet i _ :: os => 0 <= i /\ in_range n os
  | VAdd _ :: os => in_range (n + 1) os
  | _ :: os => in_range n os
  end.

(** ** Maps: the history of insertions, oldest first *)
Section Maps.
Variables K V : Type.
Variable key_eqb : K -> K -> bool.
Fixpoint first_value (k : K) (h : list (K * V)) : option V :=
  match h with [] => None | (k', v) :: h => if key_eqb k' k then Some v else first_value k h end.
(** The number of different keys. *)
Fixpoint distinct (h : list (K * V)) : nat :=
  match h with
  | [] => 0
  | (k, _) :: h => (if existsb (fun e => key_eqb (fst e) k) h then 0 else 1) + distinct h
  end.
(** What the calls answer, after the insertions [h]; [dflt] stands for a missing value. *)
Fixpoint map_answers (dflt : V) (h : list (K * V)) (os : list (map_op K V)) : list (vec_result V) :=
  match os with
  | [] => []
  | MContains k :: os =>
      RBool (match first_value k h with Some _ => true | None => false end) :: map_answers dflt h os
  | MGet k :: os => RElement (match first_value k h with Some v => v | None => dflt end) :: map_answers dflt h os
  | MInsert k v :: os =>
      RBool (match first_value k h with Some _ => false | None => true end) :: map_answers dflt (h ++ [(k, v)]) os
  | MSize :: os => RSize (Z.of_nat (distinct h)) :: map_answers dflt h os
  end.
End Maps.
Definition map_op_value {K V} (P : K -> Prop) (Q : V -> Prop) (o : map_op K V) : Prop :=
  match o with MContains k | MGet k => P k | MInsert k v => P k /\ Q v | MSize => True end.
