(** What users expect of the registry of functions (C55) and of the check of arguments (C70), in terms of C++ types. *)
From Coq Require Import List Bool Arith ZArith.
Import ListNotations.
From Verif Require Import DType_Spec Lexer_Model.
Local Open Scope Z_scope.

(** ** C55 *)
(** A function offered for registration: its name, signature and address, and whether as a vector function. *)
Record offer : Type := Offer
  { o_name : text; o_return : cpptype; o_args : list cpptype; o_func : Z; o_vector : bool }.

Definition is_pointer (t : cpptype) : bool := match t with CPtr _ => true | _ => false end.
(** Vector functions take at least two arguments, all pointers. *)
Definition well_formed (o : offer) : bool :=
  if o_vector o then (2 <=? length (o_args o))%nat && forallb is_pointer (o_args o) else true.

(** The function a name stands for: the first well formed offer under this name (oldest first). *)
Fixpoint bound (offers : list offer) (name : text) : option offer :=
  match offers with
  | [] => None
  | o :: offers => if well_formed o && text_eqb (o_name o) name then Some o else bound offers name
  end.
(** Whether offer [o], made after [earlier], is accepted. *)
Definition accepted (earlier : list offer) (o : offer) : bool :=
  well_formed o && match bound earlier (o_name o) with Some _ => false | None => true end.

(** The first Context* among the arguments (21 is the type number of Context). *)
Definition is_context_ptr (t : cpptype) : bool := match t with CPtr (CBase 21) => true | _ => false end.
Fixpoint first_context (ts : list cpptype) : option nat :=
  match ts with
  | [] => None
  | t :: ts => if is_context_ptr t then Some O else option_map S (first_context ts)
  end.

(** ** C70 *)
(** Type numbers: 1 void, 3 bit, 4 - 15 numbers, 16 and 17 std::string_view and StringView, 18 std::string,
    19 flatbuffers string, 20 json, 24 a vector of any element type. *)
Definition number (t : cpptype) : bool := match t with CBase f => (4 <=? f) && (f <=? 15) | _ => false end.
Definition primitive (t : cpptype) : bool := match t with CBase f => (3 <=? f) && (f <=? 17) | _ => false end.
Definition vector (t : cpptype) : bool :=
  match t with CSeq KSimdVector _ => true | CBase f => f =? 24 | _ => false end.
(** A value of type [a] may be given where [b] is expected: the same type, an untyped value, any vector where a
    vector of any type is expected, a number for a number, a json value for a primitive value, a string for a
    StringView. *)
Definition convertible (a b : cpptype) : Prop :=
  a = b \/ a = CBase 1 \/ (vector a = true /\ b = CBase 24) \/ (number a = true /\ number b = true) \/
  (a = CPtr (CBase 20) /\ primitive b = true) \/
  (b = CBase 17 /\ (a = CPtr (CBase 18) \/ a = CPtr (CBase 19))).

(** Where a vector function expects a pointer to [p]: a vector of [p], or a value convertible to [p]. *)
Definition vector_convertible (a p : cpptype) : Prop :=
  match a with
  | CSeq KSimdVector e => e = p
  | CBase 24 => p = CBase 24
  | _ => convertible a p
  end.

(** Types that contain void other than as the type of an untyped value. *)
Definition hidden_void (t : cpptype) : bool :=
  let void t := match t with CBase f => f =? 1 | _ => false end in
  let first t :=
    match t with
    | CBase f => f =? 1
    | CPtr _ => false
    | CSeq _ e => void e
    | CArray e _ => void e
    | CMap _ k _ => void k
    | CPair a _ => void a
    | CTuple1 a => void a
    end in
  match t with
  | CBase _ => false
  | CPtr t => first t
  | _ => first t
  end.
Definition pointer_to_vector (t : cpptype) : bool := match t with CPtr (CSeq KSimdVector _) => true | _ => false end.
(** Types on which the check is right: classes numbered below 2047, no arrays, no hidden void, no pointer to a
    vector. *)
Definition tame (t : cpptype) : Prop :=
  supported 2047 t /\ no_arrays t /\ hidden_void t = false /\ pointer_to_vector t = false.
