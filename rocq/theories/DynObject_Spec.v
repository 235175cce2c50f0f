(** Specification of C26 and C27. *)
From Coq Require Import List Bool Arith ZArith.
Import ListNotations.
From Verif Require Import Base Lexer_Model DType_Spec DType_Model DynObject_Model.
Local Open Scope Z_scope.

(** How many bytes assigning a value of a C++ type writes on x86-64, for the types a field can have: [CBase 15] is
    long double, of which ten bytes are written. *)
Definition bytes_of (T : cpptype) : option nat :=
  match T with
  | CBase f =>
      if (f =? 3) || (f =? 4) || (f =? 5) then Some 1%nat else if (f =? 6) || (f =? 7) || (f =? 12) then Some 2%nat
      else if (f =? 8) || (f =? 9) || (f =? 13) then Some 4%nat else if (f =? 10) || (f =? 11) || (f =? 14) then Some 8%nat
      else if f =? 15 then Some 10%nat else if (f =? 16) || (f =? 17) then Some 16%nat else None
  | CSeq KSimdVector _ => Some 16%nat
  | _ => None
  end.
Definition long_double : cpptype := CBase 15.
(** The types for which the claim is made *)
Definition field_type (T : cpptype) : Prop :=
  supported 2047 T /\ no_arrays T /\ bytes_of T <> None /\ T <> long_double.

(** A schema built by adding fields: the ones that were accepted, in order *)
Fixpoint build (fs : list (text * cpptype)) (s : schema) : schema :=
  match fs with
  | [] => s
  | (n, T) :: fs' => build fs' (match add n (get_dtype T) s with Some s' => s' | None => s end)
  end.
(** The type of a field: that of its first definition *)
Fixpoint first_type (fs : list (text * cpptype)) (name : text) : option cpptype :=
  match fs with [] => None | (n, T) :: fs' => if text_eqb n name then Some T else first_type fs' name end.

Definition cpptype_eq_dec (a b : cpptype) : {a = b} + {a <> b}.
Proof. decide equality; try apply Z.eq_dec; try apply Bool.bool_dec. decide equality. Defined.

(** Calls of Set *)
Record setting : Type := Setting { t_name : text; t_how : passed; t_type : cpptype; t_value : bytes }.
(** The calls, each of which may fail and leaves the object then *)
Fixpoint set_all (s : schema) (ts : list setting) (o : bytes) : outcome bytes :=
  match ts with
  | [] => Ret o
  | t :: ts' => match set s (t_name t) (t_how t) (t_type t) (t_value t) o with
                | Ret o' => set_all s ts' o'
                | Err => set_all s ts' o
                | UB => UB
                | Hang => Hang
                end
  end.
(** The value a field should have: the last one set with the type of the field, zero bytes before *)
Fixpoint last_set (name : text) (T : cpptype) (v : bytes) (ts : list setting) : bytes :=
  match ts with
  | [] => v
  | t :: ts' =>
      last_set name T
        (match t_how t with
         | Variable_ => v
         | _ => if text_eqb (t_name t) name then (if cpptype_eq_dec (t_type t) T then t_value t else v) else v
         end) ts'
  end.
(** Values have the size of their type, which is a type that can be passed. *)
Definition proper (t : setting) : Prop :=
  supported 2047 (t_type t) /\ no_arrays (t_type t) /\
  forall n, bytes_of (t_type t) = Some n -> length (t_value t) = n.
