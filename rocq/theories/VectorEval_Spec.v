(** Specification of C44: an expression on vectors is the same expression on the elements, one index at a time. *)
From Coq Require Import List Bool Arith ZArith.
Import ListNotations.
From Verif Require Import Base Lexer_Model Op_Model Number_Model Ir_Model Scalar_Model Scalar_Spec VectorEval_Model.
Local Open Scope Z_scope.

Definition comparison_op (op : optok) : bool :=
  match op with OP_EQUAL | OP_NOT_EQUAL | OP_LESS | OP_LESS_EQUAL | OP_GREATER | OP_GREATER_EQUAL => true | _ => false end.
(** The type two operands are brought to: the vector's element type; between scalars, the one later in the list of types. *)
Definition rank (t : vty) : Z :=
  match t with
  | TNum U8 => 1 | TNum I8 => 2 | TNum U16 => 3 | TNum I16 => 4 | TNum U32 => 5 | TNum I32 => 6
  | TNum U64 => 7 | TNum I64 => 8 | TNum F32 => 9 | TNum F64 => 10 | TNum F80 => 11 | _ => 0
  end.
Definition meet (a b : bool * vty) : vty :=
  if fst a then snd a else if fst b then snd b else if rank (snd a) <=? rank (snd b) then snd b else snd a.

Section Spec.
Variable lib : optok -> vty -> list val -> option val.
Variable types : nat -> vty.

(** Whether the expression has a vector in it, and its element type *)
Fixpoint etype (e : vexpr) : bool * vty :=
  match e with
  | EVec j => (true, types j)
  | EScalar _ t => (false, t)
  | EUn _ e => etype e
  | EBin op a b => (fst (etype a) || fst (etype b), if comparison_op op then TBit else meet (etype a) (etype b))
  | ESel c a b => (fst (etype c) || fst (etype a) || fst (etype b), meet (etype a) (etype b))
  end.
Definition converted (a b : vty) (v : option val) : option val :=
  if vty_eqb a b then v else match v with Some v => cast a b v | None => None end.
(** The value of the expression when vector [j] stands for the number [elem j]; [None]: undefined. *)
Fixpoint value (elem : nat -> option val) (e : vexpr) : option val :=
  match e with
  | EVec j => elem j
  | EScalar v _ => Some v
  | EUn op e => match value elem e with Some v => oper lib op (snd (etype e)) [v] | None => None end
  | EBin op a b =>
      let t := meet (etype a) (etype b) in
      match converted (snd (etype a)) t (value elem a), converted (snd (etype b)) t (value elem b) with
      | Some x, Some y => oper lib op t [x; y]
      | _, _ => None
      end
  | ESel c a b =>
      let t := meet (etype a) (etype b) in
      match value elem c with
      | Some (VInt z) => if z =? 1 then converted (snd (etype a)) t (value elem a) else converted (snd (etype b)) t (value elem b)
      | _ => None
      end
  end.
(** Every part of the expression has a value. *)
Fixpoint defined (elem : nat -> option val) (e : vexpr) : Prop :=
  value elem e <> None /\
  match e with
  | EVec _ | EScalar _ _ => True
  | EUn _ a => defined elem a
  | EBin _ a b =>
      defined elem a /\ defined elem b /\
      converted (snd (etype a)) (meet (etype a) (etype b)) (value elem a) <> None /\
      converted (snd (etype b)) (meet (etype a) (etype b)) (value elem b) <> None
  | ESel c a b =>
      defined elem c /\ defined elem a /\ defined elem b /\
      converted (snd (etype a)) (meet (etype a) (etype b)) (value elem a) <> None /\
      converted (snd (etype b)) (meet (etype a) (etype b)) (value elem b) <> None
  end.

(** ** Expressions without conversions of parts
    An operand may be of another type only if it is a scalar variable or constant, and the other operand counts as a vector: a
    vector variable, or arithmetic on one; not a comparison. *)
Fixpoint counts_as_vector (e : vexpr) : bool :=
  match e with
  | EVec _ => true
  | EScalar _ _ => false
  | EUn _ e => counts_as_vector e
  | EBin op a b => negb (comparison_op op) && (counts_as_vector a || counts_as_vector b)
  | ESel _ a b => counts_as_vector a || counts_as_vector b
  end.
Definition number (t : vty) : bool := match t with TNum _ => true | _ => false end.
Definition fits (a b : vexpr) : bool :=
  vty_eqb (snd (etype a)) (snd (etype b)) ||
  (number (snd (etype a)) && number (snd (etype b)) &&
   match a, b with EScalar _ _, _ => counts_as_vector b | _, EScalar _ _ => counts_as_vector a | _, _ => false end).
Fixpoint plain (e : vexpr) : bool :=
  match e with
  | EVec _ | EScalar _ _ => true
  | EUn _ e => plain e
  | EBin _ a b => plain a && plain b && fits a b
  | ESel c a b => plain c && plain a && plain b && fits a b
  end.
End Spec.

(** ** Vectors *)
(** The vector variables of an expression *)
Fixpoint vectors_of (e : vexpr) : list nat :=
  match e with
  | EVec j => [j]
  | EScalar _ _ => []
  | EUn _ e => vectors_of e
  | EBin _ a b => vectors_of a ++ vectors_of b
  | ESel c a b => vectors_of c ++ vectors_of a ++ vectors_of b
  end.
Definition is_operation (e : vexpr) : bool := match e with EVec _ | EScalar _ _ => false | _ => true end.
(** The memory of a vector has its elements; bits come in whole units of 64. *)
Definition in_units (n : Z) : Z := (n + 63) / 64 * 64.
Definition vector_ok (x : vec) : Prop :=
  0 <= v_size x < 2 ^ 30 /\
  match v_ty x with TBit => in_units (v_size x) | _ => v_size x end <= Z.of_nat (length (v_mem x)).
(** Element [i] of vector [j] *)
Definition element (vecs : nat -> vec) (i : nat) (j : nat) : option val := nth_error (v_mem (vecs j)) i.
(** What an expression finds in a lane: the element; past the end the number 1, or the bit in memory. *)
Definition one (t : vty) : option val :=
  match t with
  | TNum F32 => Some (VFlt (to_fmt F32 1 0 false))
  | TNum F64 => Some (VFlt (to_fmt F64 1 0 false))
  | TNum F80 | TBit | TVoid => None
  | TNum _ => Some (VInt 1)
  end.
Definition in_lane (vecs : nat -> vec) (i : nat) (j : nat) : option val :=
  if (Z.of_nat i <? v_size (vecs j)) || vty_eqb (v_ty (vecs j)) TBit then element vecs i j else one (v_ty (vecs j)).
(** The bytes of a vector of [n] elements are counted in 32 bits. *)
Definition bytes_of (t : vty) (n : Z) : Z := match t with TBit => (n + 7) / 8 | TNum m => ty_bits m / 8 * n | TVoid => 0 end.
(** The element types of vectors *)
Definition element_type (t : vty) : bool := match t with TBit => true | TNum F80 => false | TNum _ => true | TVoid => false end.

(** ** Expressions that always have values
    +, -, *, comparisons, !, &&, ||, ?: and the division of floating-point numbers. Not: conversions of floating-point to
    integer, division and remainder of integers, functions. *)
Definition shaped (t : vty) (v : val) : bool :=
  match t, v with TBit, VInt _ => true | TNum m, VInt _ => ty_integer m | TNum m, VFlt _ => negb (ty_integer m) | _, _ => false end.
Definition floating (t : vty) : bool := match t with TNum m => negb (ty_integer m) | _ => false end.
Definition never_fails (op : optok) (t : vty) : bool :=
  match op with
  | OP_PLUS | OP_MINUS | OP_MULTIPLY | OP_EQUAL | OP_NOT_EQUAL | OP_LESS | OP_LESS_EQUAL | OP_GREATER | OP_GREATER_EQUAL
  | OP_LOGIC_AND | OP_LOGIC_OR => true
  | OP_DIVIDE => floating t
  | _ => false
  end.
Fixpoint total (types : nat -> vty) (e : vexpr) : bool :=
  let into a t := negb (floating (snd (etype types a))) || floating t in
  match e with
  | EVec _ => true
  | EScalar v t => shaped t v
  | EUn _ a => total types a
  | EBin op a b =>
      let t := meet (etype types a) (etype types b) in
      total types a && total types b && never_fails op t && into a t && into b t
  | ESel c a b =>
      let t := meet (etype types a) (etype types b) in
      total types c && total types a && total types b && into a t && into b t
  end.
(** A vector of numbers or bits *)
Definition proper_vector (x : vec) : Prop :=
  vector_ok x /\ element_type (v_ty x) = true /\ forall v, In v (v_mem x) -> shaped (v_ty x) v = true.

(** ** Integers: the mathematical value of the expression (see Scalar_Spec), if every part of it fits its type *)
Definition read (t : vty) (v : val) : option ideal :=
  match t, v with
  | TBit, VInt x => if x =? 0 then Some (MBool false) else if x =? 1 then Some (MBool true) else None
  | TNum m, VInt x =>
      match layout m with
      | Some (w, s) => if (0 <=? x) && (x <? 2 ^ w) then Some (MInt m (if s && (2 ^ (w - 1) <=? x) then x - 2 ^ w else x)) else None
      | None => None
      end
  | _, _ => None
  end.
Fixpoint ideal_value (types : nat -> vty) (elem : nat -> option val) (e : vexpr) : option ideal :=
  match e with
  | EVec j => match elem j with Some v => read (types j) v | None => None end
  | EScalar v t => read t v
  | EUn OP_NEGATIVE a => match ideal_value types elem a with Some (MInt m z) => keep m (- z) | _ => None end
  | EUn OP_NOT a => match ideal_value types elem a with Some (MBool b) => Some (MBool (negb b)) | _ => None end
  | EUn _ _ => None
  | EBin op a b =>
      match ideal_value types elem a, ideal_value types elem b, meet (etype types a) (etype types b) with
      | Some (MInt _ x), Some (MInt _ y), TNum m => both op (MInt m x) (MInt m y)
      | Some (MBool x), Some (MBool y), _ => both op (MBool x) (MBool y)
      | _, _, _ => None
      end
  | ESel c a b =>
      match ideal_value types elem c, ideal_value types elem a, ideal_value types elem b, meet (etype types a) (etype types b) with
      | Some (MBool c), Some (MInt _ x), Some (MInt _ y), TNum m => if holds m x && holds m y then Some (MInt m (if c then x else y)) else None
      | Some (MBool c), Some (MBool x), Some (MBool y), _ => Some (MBool (if c then x else y))
      | _, _, _, _ => None
      end
  end.
