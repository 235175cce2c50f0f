(** Vocabulary for C56 and C72. *)
From Coq Require Import Ascii String List Bool Arith ZArith.
Import ListNotations.
From Verif Require Import Lexer_Model DType_Spec.
Local Open Scope Z_scope.

(** The built-in types: type numbers 1 (void) to 24 (a vector of any element type). *)
Definition builtin (f : Z) : Prop := 1 <= f <= 24.
(** The type [f], or vectors of it (24 stands for vectors of any element type: there are no vectors of these). *)
Definition operand_type (vec : bool) (f : Z) : cpptype := if vec then CSeq KSimdVector (CBase f) else CBase f.
Definition an_operand (vec : bool) (f : Z) : Prop := builtin f /\ (vec = true -> f < 24).
Definition is_a_vector (vec : bool) (f : Z) : bool := vec || (f =? 24).
(** Names that can be used for operators: they do not begin with simd_vector, and end neither in _std nor in _fbs. *)
Definition operator_name (o : text) : Prop :=
  (forall x, o <> lit "simd_vector" ++ x) /\ (forall x, o <> x ++ lit "_std") /\ (forall x, o <> x ++ lit "_fbs").
(** No container or pointer inside a container: the type is described by one word. *)
Definition flat (t : cpptype) : bool :=
  let base t := match t with CBase _ => true | _ => false end in
  let one t :=
    match t with
    | CBase _ => true
    | CPtr _ => false
    | CSeq _ e => base e
    | CArray e _ => base e
    | CMap _ k v => base k && base v
    | CPair a b => base a && base b
    | CTuple1 a => base a
    end in
  match t with CPtr t => one t | t => one t end.

Definition plain (t : cpptype) : Prop := supported 2047 t /\ flat t = true.
Fixpoint no_underscore (t : text) : Prop := match t with [] => True | c :: t => c <> "_"%char /\ no_underscore t end.

(** ** C72: the names of user types *)
(** Names given to type numbers, oldest first: a name means the type it was first given to ... *)
Fixpoint first_type (l : list (text * Z)) (n : text) : option Z :=
  match l with
  | [] => None
  | (m, f) :: l => if text_eqb m n then Some f else first_type l n
  end.
(** ... and the accepted entries are those whose name is new. *)
Fixpoint accepted_names (l : list (text * Z)) (seen : list (text * Z)) : list bool :=
  match l with
  | [] => []
  | (n, f) :: l =>
      let ok := match first_type seen n with Some _ => false | None => true end in
      ok :: accepted_names l (seen ++ [(n, f)])
  end.
(** The name shown for a type: the first name it got in an accepted entry. *)
Fixpoint first_name (l : list (text * Z)) (seen : list (text * Z)) (f : Z) : option text :=
  match l with
  | [] => None
  | (n, g) :: l =>
      match first_type seen n with
      | None => if g =? f then Some n else first_name l (seen ++ [(n, g)]) f
      | Some _ => first_name l (seen ++ [(n, g)]) f
      end
  end.
