(** Specification of C79: expressions over numbers of all types, as real numbers. *)
From Coq Require Import Ascii String List Bool Arith ZArith Reals Floats.SpecFloat.
Import ListNotations.
From Flocq Require Import Core BinarySingleNaN.
From Verif Require Import Base Lexer_Model Op_Model Number_Model Parser_Model Parser_Spec Ir_Model Codegen_Spec Scalar_Model Scalar_Spec Json_Spec.

(** A truth value, or a number with the type it is kept in *)
Inductive quantity : Type := QBool (b : bool) | QNum (n : numty) (x : R).

(** The number [x] rounded to nearest even in a floating type is not too large for it. *)
Definition in_range (n : numty) (x : R) : Prop := ty_integer n = false /\ (Rabs (rounded n x) < bpow radix2 (fmt_emax n))%R.
(** Conversion of a number to a type: an integer type drops the fraction, a floating type rounds to nearest
    even. No conversion if the type does not have the result. *)
Inductive converts (x : R) : numty -> R -> Prop :=
| to_integer n : holds n (Ztrunc x) = true -> converts x n (IZR (Ztrunc x))
| to_floating n : in_range n x -> converts x n (rounded n x).

(** The four operations of the real numbers *)
Inductive real_op : optok -> R -> R -> R -> Prop :=
| ro_plus x y : real_op OP_PLUS x y (x + y)
| ro_minus x y : real_op OP_MINUS x y (x - y)
| ro_times x y : real_op OP_MULTIPLY x y (x * y)
| ro_divide x y : y <> 0%R -> real_op OP_DIVIDE x y (x / y).
(** The operations whose result needs no rounding: the remainder of the truncated quotient, the maximum and
    the minimum *)
Inductive exact_op : optok -> R -> R -> R -> Prop :=
| eo_remainder x y : y <> 0%R -> exact_op OP_MOD x y (x - IZR (Ztrunc (x / y)) * y)
| eo_maximum x y : exact_op OP_MAX x y (Rmax x y)
| eo_minimum x y : exact_op OP_MIN x y (Rmin x y).
(** An operation on two numbers of one type: on integers the exact result (C45), on floating numbers the
    real result, rounded once, and not rounded at all for the remainder, maximum and minimum. *)
Inductive operates (n : numty) (op : optok) : R -> R -> R -> Prop :=
| on_integers x y z : both op (MInt n x) (MInt n y) = Some (MInt n z) -> operates n op (IZR x) (IZR y) (IZR z)
| on_floating x y r : real_op op x y r -> in_range n r -> operates n op x y (rounded n r)
| exactly_floating x y r : ty_integer n = false -> exact_op op x y r -> operates n op x y r.
(** The functions to whole numbers: downwards, upwards, towards zero, and to the nearest, with halves away from
    zero or to even *)
Definition whole_functions : list (text * (R -> Z)) :=
  [(lit "floor", Zfloor); (lit "ceil", Zceil); (lit "trunc", Ztrunc); (lit "round", ZnearestA); (lit "rint", ZnearestE)].
(** The negative and the absolute value; unsigned types have neither, beyond zero. *)
Definition has (n : numty) (x : R) : Prop := representable n x.
Definition signed (n : numty) : Prop := match layout n with Some (_, s) => s = true | None => True end.

(** The value of an expression. The operands of a binary operator are converted to the wider type first. *)
Inductive means (ρ : text -> option quantity) : expr -> quantity -> Prop :=
| m_bool b : means ρ (EBool b) (QBool b)
| m_int v ty n z : build_const (v, ty) = Ret (CInt n z) -> holds n z = true -> means ρ (ENum v ty) (QNum n (IZR z))
| m_flt v ty n m e : build_const (v, ty) = Ret (CFloat n (m, e)) -> in_range n (F2R (Float radix2 m e)) ->
    means ρ (ENum v ty) (QNum n (rounded n (F2R (Float radix2 m e))))
| m_var x q : ρ x = Some q -> means ρ (EVar x) q
| m_pi : ρ (lit "pi") = None -> means ρ (EVar (lit "pi")) (QNum F64 (rounded F64 PI))
| m_e : ρ (lit "e") = None -> means ρ (EVar (lit "e")) (QNum F64 (rounded F64 (exp 1)))
| m_negative a n x : means ρ a (QNum n x) -> has n (- x) -> means ρ (EUn OP_NEGATIVE a) (QNum n (- x))
| m_abs a n x : means ρ a (QNum n x) -> signed n -> has n (Rabs x) -> means ρ (ECall (lit "abs") [a]) (QNum n (Rabs x))
| m_sqrt a n x : means ρ a (QNum n x) -> ty_integer n = false -> (0 <= x)%R ->
    means ρ (ECall (lit "sqrt") [a]) (QNum n (rounded n (sqrt x)))
| m_whole f g a n x : In (f, g) whole_functions -> means ρ a (QNum n x) -> ty_integer n = false ->
    means ρ (ECall f [a]) (QNum n (IZR (g x)))
| m_fma a b c l m n t x y z x' y' z' : means ρ a (QNum l x) -> means ρ b (QNum m y) -> means ρ c (QNum n z) ->
    t = wider l (wider m n) -> converts x t x' -> converts y t y' -> converts z t z' -> in_range t (x' * y' + z') ->
    means ρ (ECall (lit "fma") [a; b; c]) (QNum t (rounded t (x' * y' + z')))
| m_not a b : means ρ a (QBool b) -> means ρ (EUn OP_NOT a) (QBool (negb b))
| m_and a b x y : means ρ a (QBool x) -> means ρ b (QBool y) -> means ρ (EBin OP_LOGIC_AND a b) (QBool (x && y))
| m_or a b x y : means ρ a (QBool x) -> means ρ b (QBool y) -> means ρ (EBin OP_LOGIC_OR a b) (QBool (x || y))
| m_operation op a b m n x y x' y' r : In op [OP_PLUS; OP_MINUS; OP_MULTIPLY; OP_DIVIDE; OP_MOD] ->
    means ρ a (QNum m x) -> means ρ b (QNum n y) -> converts x (wider m n) x' -> converts y (wider m n) y' ->
    operates (wider m n) op x' y' r -> means ρ (EBin op a b) (QNum (wider m n) r)
| m_extremum f op a b m n x y x' y' r : In (f, op) [(lit "max", OP_MAX); (lit "min", OP_MIN)] ->
    means ρ a (QNum m x) -> means ρ b (QNum n y) -> converts x (wider m n) x' -> converts y (wider m n) y' ->
    operates (wider m n) op x' y' r -> means ρ (ECall f [a; b]) (QNum (wider m n) r)
| m_comparison op a b m n x y x' y' c :
    means ρ a (QNum m x) -> means ρ b (QNum n y) -> converts x (wider m n) x' -> converts y (wider m n) y' ->
    answer op (Rcompare x' y') = Some c -> means ρ (EBin op a b) (QBool c)
| m_choice c a b t m n x y x' y' : means ρ c (QBool t) -> means ρ a (QNum m x) -> means ρ b (QNum n y) ->
    converts x (wider m n) x' -> converts y (wider m n) y' ->
    means ρ (ECond c a b) (QNum (wider m n) (if t then x' else y'))
| m_choice_bool c a b t x y : means ρ c (QBool t) -> means ρ a (QBool x) -> means ρ b (QBool y) ->
    means ρ (ECond c a b) (QBool (if t then x else y)).

(** Arguments: a parameter, its value, and the machine value passed for it *)
Inductive represents : quantity -> val -> Prop :=
| rep_bool b : represents (QBool b) (VInt (if b then 1 else 0))
| rep_num n v x : denotes n v x -> represents (QNum n x) v.
Definition q_type (q : quantity) : vty := match q with QBool _ => TBit | QNum n _ => TNum n end.
Definition typed_params (l : list (text * quantity)) : list (vty * text) := map (fun p => (q_type (snd p), fst p)) l.
Record passed (l : list (text * quantity)) (args : list val) : Prop := {
  a_distinct : NoDup (map fst l); a_pi : ~ In (lit "pi") (map fst l); a_e : ~ In (lit "e") (map fst l);
  a_values : Forall2 (fun p v => represents (snd p) v) l args }.
(** The result, converted to the declared type *)
Inductive gives : vty -> quantity -> quantity -> Prop :=
| gives_bool b : gives TBit (QBool b) (QBool b)
| gives_num m n x x' : converts x n x' -> gives (TNum n) (QNum m x) (QNum n x').

(** ** All floating values, NaN and the infinities included *)
(** Expressions in which every number is floating: the type *)
Inductive floating (τ : text -> option numty) : expr -> vty -> Prop :=
| f_bool b : floating τ (EBool b) TBit
| f_literal v ty n d : build_const (v, ty) = Ret (CFloat n d) -> floating τ (ENum v ty) (TNum n)
| f_var x n : τ x = Some n -> floating τ (EVar x) (TNum n)
| f_constant x : In x [lit "pi"; lit "e"] -> τ x = None -> floating τ (EVar x) (TNum F64)
| f_negative a n : floating τ a (TNum n) -> floating τ (EUn OP_NEGATIVE a) (TNum n)
| f_abs a n : floating τ a (TNum n) -> floating τ (ECall (lit "abs") [a]) (TNum n)
| f_function f a n : In f [lit "sqrt"; lit "floor"; lit "ceil"; lit "trunc"; lit "round"; lit "rint"] ->
    floating τ a (TNum n) -> floating τ (ECall f [a]) (TNum n)
| f_fused a b c l m n : floating τ a (TNum l) -> floating τ b (TNum m) -> floating τ c (TNum n) ->
    floating τ (ECall (lit "fma") [a; b; c]) (TNum (wider l (wider m n)))
| f_not a : floating τ a TBit -> floating τ (EUn OP_NOT a) TBit
| f_logic op a b : In op [OP_LOGIC_AND; OP_LOGIC_OR] -> floating τ a TBit -> floating τ b TBit -> floating τ (EBin op a b) TBit
| f_operation op a b m n : In op [OP_PLUS; OP_MINUS; OP_MULTIPLY; OP_DIVIDE; OP_MOD] ->
    floating τ a (TNum m) -> floating τ b (TNum n) -> floating τ (EBin op a b) (TNum (wider m n))
| f_extremum f a b m n : In f [lit "max"; lit "min"] ->
    floating τ a (TNum m) -> floating τ b (TNum n) -> floating τ (ECall f [a; b]) (TNum (wider m n))
| f_comparison op a b m n : In op [OP_EQUAL; OP_NOT_EQUAL; OP_LESS; OP_LESS_EQUAL; OP_GREATER; OP_GREATER_EQUAL] ->
    floating τ a (TNum m) -> floating τ b (TNum n) -> floating τ (EBin op a b) TBit
| f_choice c a b m n : floating τ c TBit -> floating τ a (TNum m) -> floating τ b (TNum n) -> floating τ (ECond c a b) (TNum (wider m n))
| f_choice_bool c a b : floating τ c TBit -> floating τ a TBit -> floating τ b TBit -> floating τ (ECond c a b) TBit.
(** The operations on two floating numbers [a] and [b]: + - * / % max min *)
Definition float_operations (a b : expr) : list expr :=
  [EBin OP_PLUS a b; EBin OP_MINUS a b; EBin OP_MULTIPLY a b; EBin OP_DIVIDE a b; EBin OP_MOD a b;
   ECall (lit "max") [a; b]; ECall (lit "min") [a; b]].
Definition sign_of (f : spec_float) : bool := match f with S754_zero s | S754_infinity s | S754_finite s _ _ => s | S754_nan => false end.
(** A value of a type: any floating value, or a truth value *)
Inductive some_value : vty -> val -> Prop :=
| sv_bool (b : bool) : some_value TBit (VInt (if b then 1 else 0))
| sv_flt n f : ty_integer n = false -> some_value (TNum n) (VFlt f).
Record any_floats (l : list (text * numty)) (args : list val) : Prop := {
  n_distinct : NoDup (map fst l); n_pi : ~ In (lit "pi") (map fst l); n_e : ~ In (lit "e") (map fst l);
  n_values : Forall2 (fun p v => some_value (TNum (snd p)) v) l args }.
Definition float_params (l : list (text * numty)) : list (vty * text) := map (fun p => (TNum (snd p), fst p)) l.
