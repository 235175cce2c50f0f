(** Model of rapidudf/reflect/protobuf.h and flatbuffers.h, and of the wrapper of member functions in
    rapidudf/meta/function.h:147-196: what UDFs do with protobuf messages and FlatBuffers objects.
    The generated classes are not code of this repository. Their contract, as modelled: a getter gives the value of
    the field; a sub-message that is not set is read as the default instance of its type, one object shared by all
    messages; a FlatBuffers table, vector or string that is absent is a null pointer; a setter changes the field.
    Left out: how arguments and results are converted on the way (numbers are of the type of the field, strings
    are sequences of bytes; see C17-C20 for string views), how long a string that was read stays valid (a long one
    refers to the field, until the field is set), presence bits, oneof, arenas. *)
From Coq Require Import List Bool Arith ZArith.
Import ListNotations.
From Verif Require Import Base Lexer_Model.
Local Open Scope Z_scope.

Definition addr : Type := nat.
(** What elements of containers are *)
Inductive kind : Type := KNum | KStr | KMsg.

Section Messages.
(** Numbers and keys of maps with their operator==, and the value-initialised number *)
Variable N : Type.
Variable num_eqb : N -> N -> bool.
Variable zero : N.
Variable K : Type.
Variable key_eqb : K -> K -> bool.

Inductive elem : Type := ENum (n : N) | EStr (t : text) | EMsg (a : addr).
Inductive field : Type :=
| FNum (n : N)
| FStr (t : text)
| FSub (dflt : addr) (a : option addr)           (* protobuf: the default instance of the type, and the message if set *)
| FRep (l : list elem)                           (* RepeatedField of numbers, RepeatedPtrField of strings and messages *)
| FMap (k : kind) (l : list (K * elem))
| FTable (a : option addr)                       (* FlatBuffers *)
| FVec (v : option (kind * list elem)).
Definition message : Type := list (text * field).
Definition heap : Type := addr -> option message.
(** What a UDF holds. Containers of protobuf: a pointer to the field of a message, or null. *)
Inductive value : Type :=
| VNum (n : N) | VInt (z : Z) | VBool (b : bool) | VStr (t : text) | VVoid
| VMsg (a : option addr)
| VCont (c : option (addr * text))
| VVec (v : option (kind * list elem))
| VFStr (t : option text).                       (* const flatbuffers::String* *)

Definition find_field (m : message) (f : text) : option field := option_map snd (find (fun x => text_eqb (fst x) f) m).
Fixpoint set_field (m : message) (f : text) (v : field) : message :=
  match m with
  | [] => []
  | (g, w) :: m' => if text_eqb g f then (g, v) :: m' else (g, w) :: set_field m' f v
  end.
Definition store (h : heap) (a : addr) (m : message) : heap := fun b => if Nat.eqb b a then Some m else h b.

(** protobuf.h:31-59, PBArgType::value: numbers and strings by value, messages by pointer *)
Definition passed (e : elem) : value :=
  match e with ENum n => VNum n | EStr t => VStr t | EMsg a => VMsg (Some a) end.
(** The same for FlatBuffers (Vector<T>::return_type): strings and tables by pointer *)
Definition fpassed (e : elem) : value :=
  match e with ENum n => VNum n | EStr t => VFStr (Some t) | EMsg a => VMsg (Some a) end.
(** [return {}] in protobuf.h:81 (StringView is empty) and flatbuffers.h:32 *)
Definition nothing (k : kind) : value := match k with KNum => VNum zero | KStr => VStr [] | KMsg => VMsg None end.
Definition fnothing (k : kind) : value := match k with KNum => VNum zero | KStr => VFStr None | KMsg => VMsg None end.

(** The methods UDFs call *)
Inductive method : Type :=
| Get (f : text)                                  (* x.f() *)
| SetNum (f : text) (n : N) | SetStr (f : text) (t : text)
| MapGet (k : K) | MapSize | MapContains (k : K)
| RepGet (i : Z) | RepSize | RepFind (n : N) | RepContains (n : N)
| VecGet (i : Z) | VecSize.

(** A getter of a generated class: the value, or a pointer to the container *)
Definition getter (a : addr) (f : text) (v : field) : value :=
  match v with
  | FNum n => VNum n
  | FStr t => VStr t
  | FSub d None => VMsg (Some d)
  | FSub _ (Some b) => VMsg (Some b)
  | FRep _ | FMap _ _ => VCont (Some (a, f))
  | FTable b => VMsg b
  | FVec v => VVec v
  end.
(** protobuf.h:134-145, PBRepeatedFieldHelper::Find, the loop from index [i]. [None]: an element that is not a number;
    the class has numbers only. *)
Fixpoint find_from (i : Z) (l : list elem) (n : N) : option Z :=
  match l with
  | [] => Some (-1)
  | ENum m :: l' => if num_eqb m n then Some (wraps 32 i) else find_from (i + 1) l' n
  | _ :: _ => None
  end.
(** The container a pointer refers to *)
Definition container (h : heap) (c : option (addr * text)) : outcome (option field) :=
  match c with
  | None => Ret None
  | Some (a, f) => match h a with Some m => match find_field m f with Some v => Ret (Some v) | None => UB end | None => UB end
  end.
(** A call of a method. [Err]: an exception, or no such method for the object, which the compiler refuses. *)
Definition call (h : heap) (x : value) (o : method) : outcome (heap * value) :=
  match x, o with
  (* function.h:186-196, MemberFunctionWrapper::Call, const *)
  | VMsg None, Get _ => Err
  | VMsg (Some a), Get f =>
      match h a with
      | None => UB
      | Some m => match find_field m f with Some v => Ret (h, getter a f v) | None => Err end
      end
  (* function.h:162-172, MemberFunctionWrapper::Call *)
  | VMsg None, SetNum _ _ => Err
  | VMsg (Some a), SetNum f n =>
      match h a with
      | None => UB
      | Some m => match find_field m f with Some (FNum _) => Ret (store h a (set_field m f (FNum n)), VVoid) | _ => Err end
      end
  (* protobuf.h:166-169, PBSetStringHelper::Call: no test for null *)
  | VMsg None, SetStr _ _ => UB
  | VMsg (Some a), SetStr f t =>
      match h a with
      | None => UB
      | Some m => match find_field m f with Some (FStr _) => Ret (store h a (set_field m f (FStr t)), VVoid) | _ => Err end
      end
  (* protobuf.h:74-84 *)
  | VCont c, MapGet k =>
      do! v <- container h c;
      match v with
      | None => Err
      | Some (FMap e l) => Ret (h, match find (fun x => key_eqb (fst x) k) l with Some x => passed (snd x) | None => nothing e end)
      | Some _ => Err
      end
  (* protobuf.h:85-90 *)
  | VCont c, MapSize =>
      do! v <- container h c;
      match v with None => Ret (h, VInt 0) | Some (FMap _ l) => Ret (h, VInt (Z.of_nat (length l))) | Some _ => Err end
  (* protobuf.h:91-97 *)
  | VCont c, MapContains k =>
      do! v <- container h c;
      match v with
      | None => Ret (h, VBool false)
      | Some (FMap _ l) => Ret (h, VBool (match find (fun x => key_eqb (fst x) k) l with Some _ => true | None => false end))
      | Some _ => Err
      end
  (* protobuf.h:103-109 and 121-127: Get(int) of RepeatedField and RepeatedPtrField does not check the index. *)
  | VCont c, RepGet i =>
      do! v <- container h c;
      match v with
      | None => Err
      | Some (FRep l) =>
          let i := wraps 32 i in
          if i <? 0 then UB else match nth_error l (Z.to_nat i) with Some e => Ret (h, passed e) | None => UB end
      | Some _ => Err
      end
  (* protobuf.h:110-115 and 128-133 *)
  | VCont c, RepSize =>
      do! v <- container h c;
      match v with None => Ret (h, VInt 0) | Some (FRep l) => Ret (h, VInt (Z.of_nat (length l))) | Some _ => Err end
  (* protobuf.h:134-145 *)
  | VCont c, RepFind n =>
      do! v <- container h c;
      match v with
      | None => Ret (h, VInt (-1))
      | Some (FRep l) => match find_from 0 l n with Some i => Ret (h, VInt i) | None => Err end
      | Some _ => Err
      end
  (* protobuf.h:146-149 *)
  | VCont c, RepContains n =>
      do! v <- container h c;
      match v with
      | None => Ret (h, VBool (-1 <? -1))
      | Some (FRep l) => match find_from 0 l n with Some i => Ret (h, VBool (-1 <? i)) | None => Err end
      | Some _ => Err
      end
  (* flatbuffers.h:27-35; the index is a uint32_t *)
  | VVec v, VecGet i =>
      match v with
      | None => Err
      | Some (k, l) =>
          let i := wrapu 32 i in
          if Z.of_nat (length l) <=? i then Ret (h, fnothing k)
          else match nth_error l (Z.to_nat i) with Some e => Ret (h, fpassed e) | None => UB end
      end
  (* flatbuffers.h:36-41 *)
  | VVec v, VecSize => Ret (h, VInt (match v with None => 0 | Some (_, l) => Z.of_nat (length l) end))
  | _, _ => Err
  end.

(** A UDF: each step calls a method of something it holds; the result is held, too. *)
Fixpoint run (h : heap) (vs : list value) (os : list (nat * method)) : outcome (heap * list value) :=
  match os with
  | [] => Ret (h, vs)
  | (i, o) :: os' =>
      match nth_error vs i with
      | None => Err
      | Some x => do! (h, y) <- call h x o; run h (vs ++ [y]) os'
      end
  end.
End Messages.
