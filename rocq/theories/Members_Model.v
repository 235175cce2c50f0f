(** Model of rapidudf/reflect/reflect.{h,cc}: the fields and methods registered for the types of users. *)
From Coq Require Import List Bool Arith ZArith.
Import ListNotations.
From Verif Require Import Base Lexer_Model DType_Spec DType_Model DynObject_Model Function_Model Members_Spec.
Local Open Scope Z_scope.

(** reflect.h:32-51, StructMember. [m_offset] is meaningful with [m_field] only. *)
Record member : Type := Member { m_name : text; m_func : option desc; m_field : option dtype; m_offset : Z }.
(** reflect.h:45-48 *)
Definition no_members : list (text * member) := [].
(** reflect.h:54-60, GlobalStructMemberIndex: from the control word of a type to its StructMembers. The vector
    [members] and the map [member_map] share their StructMember objects, and both grow together: one list of
    the entries of [member_map] in the order of [members]. *)
Definition index : Type := list (Z * list (text * member)).
Fixpoint find_key {A} (l : list (Z * A)) (k : Z) : option A :=
  match l with [] => None | (k', a) :: l => if k' =? k then Some a else find_key l k end.
Fixpoint put_key {A} (l : list (Z * A)) (k : Z) (a : A) : list (Z * A) :=
  match l with [] => [(k, a)] | (k', b) :: l => if k' =? k then (k, a) :: l else (k', b) :: put_key l k a end.
Fixpoint put_text {A} (l : list (text * A)) (n : text) (a : A) : list (text * A) :=
  match l with [] => [(n, a)] | (n', b) :: l => if text_eqb n' n then (n', a) :: l else (n', b) :: put_text l n a end.
(** get_global_reflect_index()[dtype.Control()] *)
Definition members_at (R : index) (T : dtype) : list (text * member) :=
  match find_key R (control (ctrl_of T)) with Some ms => ms | None => no_members end.

(** reflect.cc:56-72, AddStructField *)
Definition add_field (T : dtype) (name : text) (field : dtype) (offset : Z) (R : index) : index * bool :=
  let ms := members_at R T in
  let R' ms := put_key R (control (ctrl_of T)) ms in
  match find_text ms name with
  | None => (R' (ms ++ [(name, Member name None (Some field) (wrapu 32 offset))]), true)
  | Some e =>
      match m_field e with
      | None => (R' (put_text ms name (Member name (m_func e) (Some field) (wrapu 32 offset))), true)
      | Some _ => (R' ms, false)
      end
  end.
(** reflect.cc:73-88, AddStructMethodAccessor *)
Definition add_method (T : dtype) (name : text) (f : desc) (R : index) : index * bool :=
  let ms := members_at R T in
  let R' ms := put_key R (control (ctrl_of T)) ms in
  match find_text ms name with
  | None => (R' (ms ++ [(name, Member (d_name f) (Some f) None 0)]), true)
  | Some e =>
      match m_func e with
      | None => (R' (put_text ms name (Member (m_name e) (Some f) (m_field e) (m_offset e))), true)
      | Some _ => (R' ms, false)
      end
  end.
(** reflect.h:88-103, AddStructMethod: the description of a method; the function takes a T* ([by_ptr]) or a T.
    Init is not called: there is no context argument. *)
Definition method_desc (T : dtype) (by_ptr : bool) (name : text) (ret : dtype) (args : list dtype) (f : Z) : desc :=
  Desc name ret ((if by_ptr then to_ptr T else T) :: args) f None false.

(** reflect.cc:38-44, GetStructMembers *)
Definition get_members (R : index) (T : dtype) : option (list member) :=
  option_map (map snd) (find_key R (control (ctrl_of T))).
(** reflect.cc:30-36 and 46-55, GetStructMember *)
Definition get_member (R : index) (T : dtype) (name : text) : option member :=
  match find_key R (control (ctrl_of T)) with
  | None => None
  | Some ms => find_text ms name
  end.

(** Registrations in order. *)
Definition offer_member (o : offer) (R : index) : index * bool :=
  match o with
  | OField t n f off => add_field (get_dtype t) n (get_dtype f) off R
  | OMethod t n by_ptr ret args f =>
      add_method (get_dtype t) n (method_desc (get_dtype t) by_ptr n (get_dtype ret) (map get_dtype args) f) R
  end.
Fixpoint offer_members (os : list offer) (R : index) : index * list bool :=
  match os with
  | [] => (R, [])
  | o :: os => let (R, b) := offer_member o R in let (R, bs) := offer_members os R in (R, b :: bs)
  end.
