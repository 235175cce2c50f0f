(** Specification of C45, C46 and C68: expressions over mathematical integers. *)
From Coq Require Import Ascii String List Bool Arith ZArith.
Import ListNotations.
From Verif Require Import Base Lexer_Model Op_Model Number_Model Parser_Model Parser_Spec Ir_Model Codegen_Spec Scalar_Model.
Local Open Scope Z_scope.

(** The integer types: bits, and whether there are negative numbers *)
Definition layout (n : numty) : option (Z * bool) :=
  match n with
  | U8 => Some (8, false) | U16 => Some (16, false) | U32 => Some (32, false) | U64 => Some (64, false)
  | I8 => Some (8, true) | I16 => Some (16, true) | I32 => Some (32, true) | I64 => Some (64, true)
  | F32 | F64 | F80 => None
  end.
(** The integer type [n] has the number [z]. *)
Definition holds (n : numty) (z : Z) : bool :=
  match layout n with
  | Some (w, true) => (- 2 ^ (w - 1) <=? z) && (z <? 2 ^ (w - 1))
  | Some (w, false) => (0 <=? z) && (z <? 2 ^ w)
  | None => false
  end.
(** The machine value of [z] in an integer type: two's complement *)
Definition encode (n : numty) (z : Z) : val := VInt (match layout n with Some (w, _) => z mod 2 ^ w | None => 0 end).

Definition compares (op : optok) : option (Z -> Z -> bool) :=
  match op with
  | OP_EQUAL => Some (fun x y => x =? y) | OP_NOT_EQUAL => Some (fun x y => negb (x =? y))
  | OP_LESS => Some (fun x y => x <? y) | OP_LESS_EQUAL => Some (fun x y => x <=? y)
  | OP_GREATER => Some (fun x y => y <? x) | OP_GREATER_EQUAL => Some (fun x y => y <=? x)
  | _ => None
  end.
(** Division rounds towards zero; the remainder has the sign of the dividend. *)
Definition computes (op : optok) (x y : Z) : option Z :=
  match op with
  | OP_PLUS => Some (x + y) | OP_MINUS => Some (x - y) | OP_MULTIPLY => Some (x * y)
  | OP_DIVIDE => if y =? 0 then None else Some (Z.quot x y)
  | OP_MOD => if y =? 0 then None else Some (Z.rem x y)
  | OP_MAX => Some (Z.max x y) | OP_MIN => Some (Z.min x y)
  | _ => None
  end.

(** A mathematical value: a truth value, or an integer with the type it is kept in *)
Inductive ideal : Type := MBool (b : bool) | MInt (n : numty) (z : Z).
Definition keep (n : numty) (z : Z) : option ideal := if holds n z then Some (MInt n z) else None.
(** The type of a binary operation is the wider of its operand types, whichever comes first. *)
Definition both (op : optok) (x y : ideal) : option ideal :=
  match x, y with
  | MInt m x, MInt n y =>
      let t := wider m n in
      if holds t x && holds t y then
        match compares op with
        | Some f => Some (MBool (f x y))
        | None =>
            match op with
            | OP_DIVIDE | OP_MOD =>
                (* the quotient must fit, for the remainder too *)
                if holds t (Z.quot x y) then match computes op x y with Some z => keep t z | None => None end else None
            | _ => match computes op x y with Some z => keep t z | None => None end
            end
        end
      else None
  | MBool x, MBool y =>
      match op with
      | OP_LOGIC_AND => Some (MBool (x && y))
      | OP_LOGIC_OR => Some (MBool (x || y))
      | _ => None
      end
  | _, _ => None
  end.
(** The value of an expression in mathematical integers. [None]: it is not an integer expression, or it
    divides by zero, or some intermediate value does not fit the type it is kept in. *)
Fixpoint ideal_eval (ρ : text -> option ideal) (e : expr) : option ideal :=
  match e with
  | EBool b => Some (MBool b)
  | ENum v ty => match build_const (v, ty) with Ret (CInt n z) => keep n z | _ => None end
  | EVar x => ρ x
  | EUn op a =>
      match op, ideal_eval ρ a with
      | OP_NEGATIVE, Some (MInt n z) => keep n (- z)
      | OP_NOT, Some (MBool b) => Some (MBool (negb b))
      | _, _ => None
      end
  | EBin op a b =>
      match ideal_eval ρ a, ideal_eval ρ b with
      | Some x, Some y => if existsb (optok_eqb op) infix_ops then both op x y else None
      | _, _ => None
      end
  | ECond c a b =>
      match ideal_eval ρ c, ideal_eval ρ a, ideal_eval ρ b with
      | Some (MBool c), Some (MInt m x), Some (MInt n y) =>
          let t := wider m n in if holds t x && holds t y then Some (MInt t (if c then x else y)) else None
      | Some (MBool c), Some (MBool x), Some (MBool y) => Some (MBool (if c then x else y))
      | _, _, _ => None
      end
  | ECall f [a] =>
      if text_eqb f (lit "abs") then
        match ideal_eval ρ a with
        | Some (MInt n z) => match layout n with Some (_, true) => keep n (Z.abs z) | _ => None end
        | _ => None
        end
      else None
  | ECall f [a; b] =>
      match ideal_eval ρ a, ideal_eval ρ b with
      | Some (MInt m x), Some (MInt n y) =>
          if text_eqb f (lit "max") then both OP_MAX (MInt m x) (MInt n y)
          else if text_eqb f (lit "min") then both OP_MIN (MInt m x) (MInt n y) else None
      | _, _ => None
      end
  | _ => None
  end.

(** An argument list and the mathematical values of the parameters *)
Definition ideal_type (x : ideal) : vty := match x with MBool _ => TBit | MInt n _ => TNum n end.
Definition machine (x : ideal) : val := match x with MBool b => VInt (if b then 1 else 0) | MInt n z => encode n z end.
Definition fits_type (x : ideal) : bool := match x with MBool _ => true | MInt n z => holds n z end.
Definition ideal_env (l : list (text * ideal)) (x : text) : option ideal := find_text l x.
(** Parameters with their types, and the arguments *)
Definition params_of (l : list (text * ideal)) : list (vty * text) := map (fun p => (ideal_type (snd p), fst p)) l.
Definition args_of (l : list (text * ideal)) : list val := map (fun p => machine (snd p)) l.
Record proper (l : list (text * ideal)) : Prop := {
  p_distinct : NoDup (map fst l); p_pi : ~ In (lit "pi") (map fst l); p_e : ~ In (lit "e") (map fst l);
  p_fit : forallb (fun p => fits_type (snd p)) l = true }.
(** The result of a function with a declared return type: a truth value, or an integer the type has *)
Definition returned (ret : vty) (m : ideal) : option val :=
  match ret, m with
  | TBit, MBool b => Some (machine (MBool b))
  | TNum n, MInt _ z => if holds n z then Some (encode n z) else None
  | _, _ => None
  end.
(** A machine value of a number type *)
Definition of_type (n : numty) (v : val) : Prop :=
  match v with VInt x => match layout n with Some (w, _) => 0 <= x < 2 ^ w | None => False end | VFlt f => layout n = None end.
