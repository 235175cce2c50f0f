(** The part of LLVM's intermediate language that rapidudf/compiler emits for scalar code, with its
    documented meaning (LLVM Language Reference). What an operation on values computes, and what external
    functions do, are parameters.
    Left out: dominance, as a static rule on the blocks; reading a register or a stack slot that was not
    written is undefined behaviour here, when it happens. A read of a slot with undefined contents (undef
    in LLVM) is undefined behaviour, too. *)
From Coq Require Import List Bool Arith ZArith.
Import ListNotations.
From Verif Require Import Base Lexer_Model Op_Model Number_Model.

(** The scalar types: void, bit and the number types (dtype_enums.h). *)
Inductive vty : Type := TVoid | TBit | TNum (n : numty).
Definition vty_eq_dec (a b : vty) : {a = b} + {a <> b}.
Proof. decide equality. decide equality. Defined.
Definition vty_eqb (a b : vty) : bool := if vty_eq_dec a b then true else false.

(** Constants. pi and e are those of meta/constants.h. *)
Inductive konst : Type := KNum (c : const) | KBool (b : bool) | KPi | KE.
Inductive opnd : Type := OReg (r : nat) | OConst (k : konst) | OArg (i : nat).
(** Pure operations: a conversion, an operator at a type (instruction or intrinsic), and the library
    function for an operator at a type (math functions, no side effects). *)
Inductive prim : Type := PCast (a b : vty) | POp (op : optok) (t : vty) | PFun (op : optok) (t : vty).
Inductive inst : Type :=
| IAlloca (s : nat)
| ILoad (r s : nat)
| IStore (o : opnd) (s : nat)
| IPrim (r : nat) (p : prim) (os : list opnd)
| ICall (r : nat) (f : text) (os : list opnd).
(** One entry of a block. *)
Inductive item : Type :=
| Ins (i : inst)
| Br (b : nat)
| CondBr (o : opnd) (b1 b2 : nat)
| RetVal (o : opnd)
| RetVoid.
Definition is_term (i : item) : bool := match i with Ins _ => false | _ => true end.
(** BasicBlock::getTerminator() != nullptr: the last entry is a terminator *)
Definition has_term (l : list item) : bool := match rev l with [] => false | i :: _ => is_term i end.
(** The blocks a terminator refers to. *)
Definition targets (i : item) : list nat :=
  match i with Br b => [b] | CondBr _ b1 b2 => [b1; b2] | _ => [] end.

(** A block: whether it belongs to the function, and its entries. *)
Record block : Type := Blk { b_in : bool; b_items : list item }.
Definition cfg : Type := list block.

Section Machine.
Context {V W : Type}.
(** Results of pure operations ([None] for undefined behaviour, such as division by zero). *)
Variable prim_sem : prim -> list V -> option V.
(** External functions and other UDFs: the state of the world, and the result. A function may also fail to return. *)
Variable ext : text -> W -> list V -> outcome (W * V).
Variable konst_val : konst -> V.
(** The value of an i1 *)
Variable truth : V -> bool.
Variable args : list V.

Definition upd {A} (m : nat -> A) (k : nat) (a : A) (n : nat) : A := if Nat.eqb n k then a else m n.
(** Registers; stack slots: not allocated, allocated with undefined contents, or holding a value. *)
Record rt : Type := Rt { regs : nat -> option V; slots : nat -> option (option V); world : W }.

Definition opval (s : rt) (o : opnd) : outcome V :=
  match o with
  | OReg r => match regs s r with Some v => Ret v | None => UB end
  | OConst k => Ret (konst_val k)
  | OArg i => match nth_error args i with Some v => Ret v | None => UB end
  end.
Fixpoint opvals (s : rt) (os : list opnd) : outcome (list V) :=
  match os with
  | [] => Ret []
  | o :: os' => do! v <- opval s o; do! vs <- opvals s os'; Ret (v :: vs)
  end.
Definition exec_inst (s : rt) (i : inst) : outcome rt :=
  match i with
  | IAlloca k => Ret (Rt (regs s) (upd (slots s) k (Some None)) (world s))
  | ILoad r k =>
      match slots s k with
      | Some (Some v) => Ret (Rt (upd (regs s) r (Some v)) (slots s) (world s))
      | _ => UB
      end
  | IStore o k =>
      do! v <- opval s o;
      match slots s k with
      | Some _ => Ret (Rt (regs s) (upd (slots s) k (Some (Some v))) (world s))
      | None => UB
      end
  | IPrim r p os =>
      do! vs <- opvals s os;
      match prim_sem p vs with Some v => Ret (Rt (upd (regs s) r (Some v)) (slots s) (world s)) | None => UB end
  | ICall r f os =>
      do! vs <- opvals s os; do! (w, v) <- ext f (world s) vs; Ret (Rt (upd (regs s) r (Some v)) (slots s) w)
  end.

(** A point of the execution: block, index in the block, state. *)
Record point : Type := Pt { p_b : nat; p_k : nat; p_rt : rt }.
Definition items_of (F : cfg) (b : nat) : list item :=
  match nth_error F b with Some x => b_items x | None => [] end.
(** One step; running off the end of a block is undefined. *)
Definition step (F : cfg) (p : point) : outcome (point + (option V * W)) :=
  let s := p_rt p in
  match nth_error (items_of F (p_b p)) (p_k p) with
  | None => UB
  | Some (Ins i) => do! s' <- exec_inst s i; Ret (inl (Pt (p_b p) (S (p_k p)) s'))
  | Some (Br b) => Ret (inl (Pt b 0 s))
  | Some (CondBr o b1 b2) => do! v <- opval s o; Ret (inl (Pt (if truth v then b1 else b2) 0 s))
  | Some (RetVal o) => do! v <- opval s o; Ret (inr (Some v, world s))
  | Some RetVoid => Ret (inr (None, world s))
  end.
(** n steps; [Hang] if the function has not returned by then. *)
Fixpoint run (n : nat) (F : cfg) (p : point) : outcome (option V * W) :=
  match n with
  | O => Hang
  | S n => do! x <- step F p; match x with inl p' => run n F p' | inr r => Ret r end
  end.
(** A call of the function: block 0 is the entry. *)
Definition call (n : nat) (F : cfg) (w : W) : outcome (option V * W) :=
  run n F (Pt 0 0 (Rt (fun _ => None) (fun _ => None) w)).
End Machine.

(** Functions that always return *)
Definition total {V W} (ext : text -> W -> list V -> W * V) (f : text) (w : W) (vs : list V) : outcome (W * V) := Ret (ext f w vs).

(** llvm::verifyFunction, as far as it concerns the shape of the blocks: a block of the function consists of
    instructions and one terminator, at the end, and refers only to blocks of the function. *)
Definition closed (l : list item) : bool :=
  match rev l with [] => false | i :: r => is_term i && forallb (fun j => negb (is_term j)) r end.
Definition inserted (F : cfg) (b : nat) : bool := match nth_error F b with Some x => b_in x | None => false end.
Definition well_formed (F : cfg) : bool :=
  inserted F 0 &&
  forallb (fun x => negb (b_in x) || closed (b_items x) && forallb (inserted F) (flat_map targets (b_items x))) F.
