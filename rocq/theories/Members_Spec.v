(** What registering the members of types means (C74), in terms of the registrations made so far. *)
From Coq Require Import List Bool Arith ZArith.
Import ListNotations.
From Verif Require Import Lexer_Model DType_Spec.
Local Open Scope Z_scope.

(** A registration: the field [name] of type [f] at [off] bytes of [t]; or the method [name] of [t], a function at
    address [f] that takes the object (by pointer or by value) and then [args]. *)
Inductive offer : Type :=
| OField (t : cpptype) (name : text) (f : cpptype) (off : Z)
| OMethod (t : cpptype) (name : text) (by_ptr : bool) (ret : cpptype) (args : list cpptype) (f : Z).
Definition o_type (o : offer) : cpptype := match o with OField t _ _ _ => t | OMethod t _ _ _ _ _ => t end.
Definition o_name (o : offer) : text := match o with OField _ n _ _ => n | OMethod _ n _ _ _ _ => n end.

(** [first P l o]: [o] is the first of [l] that satisfies [P]. *)
Definition first {A} (P : A -> Prop) (l : list A) (a : A) : Prop :=
  exists l1 l2, l = l1 ++ a :: l2 /\ P a /\ Forall (fun b => ~ P b) l1.

Definition a_field (t : cpptype) (n : text) (o : offer) : Prop := exists f off, o = OField t n f off.
Definition a_method (t : cpptype) (n : text) (o : offer) : Prop := exists b ret args f, o = OMethod t n b ret args f.
Definition a_member (t : cpptype) (n : text) (o : offer) : Prop := o_type o = t /\ o_name o = n.
(** A field (a method) was registered for [t] under this name before. *)
Definition same_kind (o o' : offer) : Prop :=
  match o with
  | OField t n _ _ => a_field t n o'
  | OMethod t n _ _ _ _ => a_method t n o'
  end.

(** [new_names t seen l ns]: the names of members of [t] in [l] in the order of their first registrations. *)
Inductive new_names (t : cpptype) : list text -> list offer -> list text -> Prop :=
| names_end seen : new_names t seen [] []
| names_other seen o l ns : o_type o <> t -> new_names t seen l ns -> new_names t seen (o :: l) ns
| names_again seen o l ns : o_type o = t -> In (o_name o) seen -> new_names t seen l ns -> new_names t seen (o :: l) ns
| names_first seen o l ns : o_type o = t -> ~ In (o_name o) seen -> new_names t (o_name o :: seen) l ns ->
    new_names t seen (o :: l) (o_name o :: ns).


(** Registrations for classes and containers of plain elements, not for pointers; offsets fit in 32 bits. *)
Definition registrable (plain : cpptype -> Prop) (o : offer) : Prop :=
  plain (o_type o) /\ (forall t, o_type o <> CPtr t) /\
  match o with OField _ _ _ off => 0 <= off < 2 ^ 32 | OMethod _ _ _ _ _ _ => True end.
