(** Specification of C28. *)
From Coq Require Import List Bool Arith ZArith.
Import ListNotations.
From Verif Require Import Base Lexer_Model Params_Model.

(** An object followed by its ancestors, nearest first *)
Inductive chain (h : heap) : nat -> list nat -> Prop :=
| chain_root a n : nth_error h a = Some n -> p_parent n = None -> chain h a [a]
| chain_up a n q l : nth_error h a = Some n -> p_parent n = Some q -> chain h q l -> chain h a (a :: l).
(** No object is among its own ancestors: every chain ends. *)
Definition acyclic (h : heap) : Prop := forall a, a < length h -> exists l, chain h a l.

(** What an object itself stores under a name *)
Definition own (h : heap) (a : nat) (name : text) : option nat :=
  match nth_error h a with Some n => find_text (p_members n) name | None => None end.
(** The nearest object that stores something under the name decides. *)
Fixpoint nearest (h : heap) (l : list nat) (name : text) : option nat :=
  match l with [] => None | a :: l' => match own h a name with Some c => Some c | None => nearest h l' name end end.

(** The value of an object: [None] for an object that holds no plain value *)
Definition content (n : pnode) : option pval :=
  match p_type n with
  | P_string => Some (PStr (p_str n)) | P_int => Some (PInt (p_int n)) | P_double => Some (PDbl (p_dbl n))
  | P_bool => Some (PBool (p_bool n)) | _ => None
  end.
(** The value found under a name *)
Definition value_of (h : heap) (r : option nat) : option pval :=
  match r with Some c => match nth_error h c with Some n => content n | None => None end | None => None end.
(** [a] is the first of [l] to decide on the name, given that it stores something under it. *)
Fixpoint decides (h : heap) (a : nat) (l : list nat) (name : text) : bool :=
  match l with
  | [] => false
  | b :: l' => if a =? b then true else match own h b name with Some _ => false | None => decides h a l' name end
  end.

(** A call keeps parents free of cycles: a new parent q of a is an ancestor of a already, or the farthest
    ancestor of a is not among q and its ancestors. *)
Definition careful (h : heap) (c : call) : Prop :=
  match c with
  | C_parent a (Some q) =>
      forall la lq, chain h a la -> chain h q lq -> In q la \/ ~ In (last la a) lq
  | _ => True
  end.
(** States reachable by careful calls *)
Inductive reachable : heap -> Prop :=
| reach_start : reachable []
| reach_call fuel c h h' : reachable h -> careful h c -> exec fuel c h = Ret h' -> reachable h'.
(** All objects of the chain that store names are objects by type. *)
Definition plain_objects (h : heap) (l : list nat) : Prop :=
  forall a n, In a l -> nth_error h a = Some n -> p_members n <> [] -> p_type n = P_object.
(** The objects of [s] have parents in [s], so none of them is the last of a chain. *)
Definition round (h : heap) (s : list nat) : Prop :=
  forall a, In a s -> exists n q, nth_error h a = Some n /\ p_parent n = Some q /\ In q s.
(** The objects a call names exist. *)
Definition on_existing (h : heap) (c : call) : Prop :=
  match c with
  | C_new => True
  | C_parent a None => a < length h
  | C_parent a (Some q) => a < length h /\ q < length h
  | C_set a _ | C_put a _ _ | C_index a _ | C_add a | C_index_at a _ => a < length h
  end.
