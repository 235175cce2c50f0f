(** Argument passing of the System V x86-64 calling convention (psABI 3.2.3), restricted to the C++ types a
    rapidudf function can take: scalars, pointers, long double, and the 16-byte views that are copied trivially. *)
From Coq Require Import List Bool Arith ZArith.
Import ListNotations.
From Verif Require Import DType_Spec.
Local Open Scope Z_scope.

(** Class of an eightbyte. *)
Inductive eightbyte : Type := INTEGER | SSE.
(** An object of at most two eightbytes, or a long double, which is always in memory, at a multiple of 16. *)
Inductive passing : Type := Words (l : list eightbyte) | Long_double.

(** Type numbers (dtype_enums.h): 3 bool, 4 - 11 the integers, 12 - 14 half, float and double, 15 long double,
    16 std::string_view, 17 StringView, 24 a vector of any type. *)
Definition abi_class (t : cpptype) : option passing :=
  match t with
  | CPtr _ => Some (Words [INTEGER])
  | CSeq KAbslSpan _ | CSeq KSimdVector _ => Some (Words [INTEGER; INTEGER])
  | CBase f =>
      if (3 <=? f) && (f <=? 11) then Some (Words [INTEGER])
      else if (12 <=? f) && (f <=? 14) then Some (Words [SSE])
      else if f =? 15 then Some Long_double
      else if (f =? 16) || (f =? 17) || (f =? 24) then Some (Words [INTEGER; INTEGER])
      else None
  | _ => None
  end.

(** Where an eightbyte is found: the n-th general purpose register (rdi, rsi, rdx, rcx, r8, r9), the n-th vector
    register, the n-th eightbyte of the stack area of the arguments. *)
Inductive place : Type := Gpr (n : nat) | Xmm (n : nat) | Stack (n : nat).
(** Registers and stack eightbytes in use. *)
Record used : Type := Used { gprs : nat; xmms : nat; slots : nat }.

Definition is_INTEGER (c : eightbyte) : bool := match c with INTEGER => true | SSE => false end.
Definition count_class (p : eightbyte -> bool) (l : list eightbyte) : nat := length (filter p l).
(** The next registers of the classes of [l]. *)
Fixpoint in_registers (l : list eightbyte) (g x : nat) : list place :=
  match l with
  | [] => []
  | INTEGER :: l => Gpr g :: in_registers l (S g) x
  | SSE :: l => Xmm x :: in_registers l g (S x)
  end.
Definition on_stack (n s : nat) : list place := map Stack (seq s n).

(** "If there are no registers available for any eightbyte of an argument, the whole argument is passed on the
    stack. If registers have already been assigned for some eightbytes of such an argument, the assignments get
    reverted." Arguments are taken from left to right. *)
Definition abi_place (p : passing) (u : used) : list place * used :=
  match p with
  | Words l =>
      let ni := count_class is_INTEGER l in
      let ns := count_class (fun c => negb (is_INTEGER c)) l in
      if ((gprs u + ni <=? 6) && (xmms u + ns <=? 8))%nat
      then (in_registers l (gprs u) (xmms u), Used (gprs u + ni) (xmms u + ns) (slots u))
      else (on_stack (length l) (slots u), Used (gprs u) (xmms u) (slots u + length l))
  | Long_double =>
      let s := (slots u + slots u mod 2)%nat in
      (on_stack 2 s, Used (gprs u) (xmms u) (s + 2))
  end.
Fixpoint abi_places (ps : list passing) (u : used) : list (list place) :=
  match ps with
  | [] => []
  | p :: ps => let (l, u) := abi_place p u in l :: abi_places ps u
  end.
Definition none_used : used := Used 0 0 0.

(** What a C++ caller or callee of a function with parameters [ts] expects. *)
Fixpoint classes (ts : list cpptype) : option (list passing) :=
  match ts with
  | [] => Some []
  | t :: ts =>
      match abi_class t, classes ts with
      | Some p, Some ps => Some (p :: ps)
      | _, _ => None
      end
  end.
Definition abi (ts : list cpptype) : option (list (list place)) :=
  match classes ts with Some ps => Some (abi_places ps none_used) | None => None end.

(** A pointer to a view (or a reference to one, which has the same data type). *)
Definition pointer_to_view (t : cpptype) : bool :=
  match t with CPtr (CSeq KAbslSpan _) | CPtr (CSeq KSimdVector _) => true | _ => false end.
(** A view passed by value. *)
Definition view (t : cpptype) : bool :=
  match t with
  | CSeq KAbslSpan _ | CSeq KSimdVector _ => true
  | CBase f => (f =? 16) || (f =? 17) || (f =? 24)
  | _ => false
  end.
