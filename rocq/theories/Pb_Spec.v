(** What users expect of messages: which objects are usable, which calls are not checked, and what reading and
    writing mean. *)
From Coq Require Import List Bool Arith ZArith.
Import ListNotations.
From Verif Require Import Base Lexer_Model Pb_Model.
Local Open Scope Z_scope.

Section Spec.
Context {N K : Type}.
Notation elem := (elem N). Notation field := (field N K). Notation heap := (heap N K). Notation value := (value N). Notation method := (method N K).

(** Nothing dangles: every message that a message or the UDF refers to exists, and pointers to containers point to
    containers. *)
Definition live (h : heap) (a : addr) : Prop := h a <> None.
Definition live_elem (h : heap) (e : elem) : Prop := match e with EMsg _ a => live h a | _ => True end.
Definition live_field (h : heap) (v : field) : Prop :=
  match v with
  | FSub _ _ d a => live h d /\ (forall b, a = Some b -> live h b)
  | FTable _ _ a => forall b, a = Some b -> live h b
  | FRep _ _ l => Forall (live_elem h) l
  | FMap _ _ _ l => Forall (fun x => live_elem h (snd x)) l
  | FVec _ _ (Some (_, l)) => Forall (live_elem h) l
  | _ => True
  end.
Definition is_container (v : field) : Prop := match v with FRep _ _ _ | FMap _ _ _ _ => True | _ => False end.
Definition live_value (h : heap) (x : value) : Prop :=
  match x with
  | VMsg _ (Some a) => live h a
  | VCont _ (Some (a, f)) => exists m v, h a = Some m /\ find_field N K m f = Some v /\ is_container v
  | VVec _ (Some (_, l)) => Forall (live_elem h) l
  | _ => True
  end.
Definition nothing_dangles (h : heap) (vs : list value) : Prop :=
  (forall a m, h a = Some m -> Forall (fun x => live_field h (snd x)) m) /\ Forall (live_value h) vs.

(** The calls that are not checked: an element of a repeated field outside of it, and a string for a field of a
    null pointer *)
Definition unchecked (h : heap) (x : value) (o : method) : Prop :=
  match x, o with
  | VCont _ (Some (a, f)), RepGet _ _ i =>
      exists m l, h a = Some m /\ find_field N K m f = Some (FRep _ _ l) /\ ~ (0 <= wraps 32 i < Z.of_nat (length l))
  | VMsg _ None, SetStr _ _ _ _ => True
  | _, _ => False
  end.
Definition writes (o : method) : bool := match o with SetNum _ _ _ _ | SetStr _ _ _ _ => true | _ => false end.
(** The elements of a repeated field of numbers *)
Definition numbers (l : list N) : list elem := map (ENum N) l.
(** What the UDF reads at a field of a message *)
Definition at_field (h : heap) (a : addr) (f : text) : option field :=
  match h a with Some m => find_field N K m f | None => None end.
End Spec.

(** What a UDF gets for an element: numbers and strings by value, messages by address; strings of FlatBuffers are
    objects of their own. *)
Definition element {N} (e : elem N) : value N :=
  match e with ENum _ n => VNum _ n | EStr _ t => VStr _ t | EMsg _ a => VMsg _ (Some a) end.
Definition flat_element {N} (e : elem N) : value N :=
  match e with ENum _ n => VNum _ n | EStr _ t => VFStr _ (Some t) | EMsg _ a => VMsg _ (Some a) end.
