(** What a script may expect of a JSON argument (C78). *)
From Coq Require Import Ascii String List Bool Arith ZArith Reals Floats.SpecFloat.
Import ListNotations.
From Flocq Require Import Core BinarySingleNaN.
From Verif Require Import Base Lexer_Model DType_Spec DType_Model Op_Model Number_Model Ir_Model Scalar_Model Scalar_Spec Access_Spec.
Local Open Scope Z_scope.

(** ** Documents *)
Inductive doc : Type :=
| DNull
| DBool (b : bool)
| DInt (z : Z)
| DReal (f : spec_float)
| DString (s : text)
| DArray (l : list doc)
| DObject (l : list (text * doc)).

(** How the host lays them out: nodes at addresses. Integers come in two kinds, signed and unsigned, of 64 bits; real
    numbers are doubles. *)
Inductive node : Type :=
| NNull
| NBool (b : bool)
| NInteger (z : Z)
| NUnsigned (z : Z)
| NFloat (f : spec_float)
| NString (s : text)
| NArray (l : list Z)
| NObject (l : list (text * Z)).
Definition heap : Type := Z -> option node.
Inductive stored (H : heap) : Z -> doc -> Prop :=
| st_null a : H a = Some NNull -> stored H a DNull
| st_bool a b : H a = Some (NBool b) -> stored H a (DBool b)
| st_integer a z : H a = Some (NInteger z) -> - 2 ^ 63 <= z < 2 ^ 63 -> stored H a (DInt z)
| st_unsigned a z : H a = Some (NUnsigned z) -> 0 <= z < 2 ^ 64 -> stored H a (DInt z)
| st_float a f : H a = Some (NFloat f) -> valid_binary 53 1024 f = true -> stored H a (DReal f)
| st_string a s : H a = Some (NString s) -> stored H a (DString s)
| st_array a ws ds : H a = Some (NArray ws) -> Z.of_nat (length ws) < 2 ^ 63 -> Forall2 (stored H) ws ds -> stored H a (DArray ds)
| st_object a ws ds : H a = Some (NObject ws) -> map fst ws = map fst ds -> NoDup (map fst ds) ->
    Forall2 (stored H) (map snd ws) (map snd ds) -> stored H a (DObject ds).

(** ** Paths *)
Inductive step : Type := At (i : Z) | Member (s : text).
(** The part of a document that a step leads to. *)
Inductive part : doc -> step -> doc -> Prop :=
| part_at l i d : 0 <= i -> nth_error l (Z.to_nat i) = Some d -> part (DArray l) (At i) d
| part_member l s d : In (s, d) l -> part (DObject l) (Member s) d.
Inductive parts : doc -> list step -> doc -> Prop :=
| parts_end d : parts d [] d
| parts_more d s d' l d'' : part d s d' -> parts d' l d'' -> parts d (s :: l) d''.
(** Steps for this kind of document: indices for arrays, names for objects. *)
Definition right_kind (d : doc) (s : step) : bool :=
  match d, s with DArray _, At _ | DObject _, Member _ => true | _, _ => false end.

(** The step that a key of the script names. Variables: [var] gives their type and their word; the words of string views
    refer to texts. 17: string views. *)
Definition int_code (n : numty) : option Z :=
  match n with U8 => Some 4 | I8 => Some 5 | U16 => Some 6 | I16 => Some 7 | U32 => Some 8 | I32 => Some 9 | U64 => Some 10 | I64 => Some 11 | _ => None end.
Inductive names (var : text -> option (dtype * Z)) (text_of : Z -> option text) : key -> step -> Prop :=
| names_num i : 0 <= i < 2 ^ 32 -> names var text_of (KNum i) (At i)
| names_text s : names var text_of (KText s) (Member s)
| names_int x n c w z : int_code n = Some c -> var x = Some (get_dtype (CBase c), w) -> holds n z = true -> encode n z = VInt w ->
    names var text_of (KVar x) (At z)
| names_view x w s : var x = Some (get_dtype (CBase 17), w) -> text_of w = Some s -> names var text_of (KVar x) (Member s).

(** ** Numbers *)
Definition number (d : doc) : option R :=
  match d with
  | DInt z => Some (IZR z)
  | DReal f => if is_finite_SF f then Some (SF2R radix2 f) else None
  | _ => None
  end.
(** The value [v] of a numeric type is the number [x]. *)
Inductive denotes : numty -> val -> R -> Prop :=
| den_int n z : holds n z = true -> denotes n (encode n z) (IZR z)
| den_flt n f : ty_integer n = false -> valid_binary (fmt_prec n) (fmt_emax n) f = true -> is_finite_SF f = true ->
    denotes n (VFlt f) (SF2R radix2 f).
Definition representable (n : numty) (x : R) : Prop := exists v, denotes n v x.
(** The format of a floating type: its numbers without bound on their size. *)
Definition rounded (n : numty) (x : R) : R :=
  round radix2 (FLT_exp (3 - fmt_emax n - fmt_prec n) (fmt_prec n)) ZnearestE x.

(** What a comparison answers, from the order of its operands. *)
Definition answer (op : optok) (c : comparison) : option bool :=
  match op with
  | OP_EQUAL => Some (match c with Eq => true | _ => false end)
  | OP_NOT_EQUAL => Some (match c with Eq => false | _ => true end)
  | OP_LESS => Some (match c with Lt => true | _ => false end)
  | OP_LESS_EQUAL => Some (match c with Gt => false | _ => true end)
  | OP_GREATER => Some (match c with Gt => true | _ => false end)
  | OP_GREATER_EQUAL => Some (match c with Lt => false | _ => true end)
  | _ => None
  end.

(** The bytes of a text *)
Definition codes (s : text) : list Z := map (fun c => Z.of_nat (nat_of_ascii c)) s.
