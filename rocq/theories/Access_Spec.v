(** What a chain of accesses  x.a.b(c)["k"]  means (C75), in terms of the members registered for the types. *)
From Coq Require Import Ascii String List Bool Arith ZArith.
Import ListNotations.
From Verif Require Import Base Lexer_Model DType_Spec DType_Model Members_Spec.
Local Open Scope Z_scope.

(** Registrations this speaks about: plain types, offsets below 2^31, and no fields of type bool (3). *)
Definition ordinary (plain : cpptype -> Prop) (o : offer) : Prop :=
  registrable plain o /\
  match o with
  | OField _ _ f off => plain f /\ f <> CBase 3 /\ off < 2 ^ 31
  | OMethod _ _ _ ret _ _ => plain ret
  end.

(** ** Memory: bytes at addresses; values are read as little-endian words. *)
Definition mem : Type := Z -> Z.
Fixpoint read (n : nat) (a : Z) (m : mem) : Z :=
  match n with O => 0 | S n => m a + 256 * read n (a + 1) m end.
Fixpoint write (n : nat) (a : Z) (w : Z) (m : mem) : mem :=
  match n with
  | O => m
  | S n => let m := write n (a + 1) (w / 256) m in fun b => if b =? a then w mod 256 else m b
  end.

(** ** Accesses. [E]: argument expressions. *)
Inductive key : Type := KNum (n : Z) | KText (s : text) | KVar (x : text).
Inductive access (E : Type) : Type :=
| AField (name : text)
| ACall (name : text) (args : list E)
| AIndex (k : key).
Arguments AField {E}. Arguments ACall {E}. Arguments AIndex {E}.
Definition is_index {E} (a : access E) : bool := match a with AIndex _ => true | _ => false end.

(** Fields of these types are values; other fields are objects inside the object. *)
Definition value_type (t : cpptype) : Prop :=
  match t with
  | CBase f => 3 <= f <= 17 \/ f = 24
  | CPtr _ => True
  | CSeq k _ => k = KSimdVector \/ k = KAbslSpan
  | _ => False
  end.
Definition size_in_bytes (t : cpptype) : nat :=
  match t with
  | CBase f =>
      if f <=? 5 then 1%nat     (* bool, u8, i8 *)
       else if f <=? 7 then 2%nat  (* u16, i16 *)
       else if f <=? 9 then 4%nat  (* u32, i32 *)
       else if f <=? 11 then 8%nat (* u64, i64 *)
       else if f =? 12 then 2%nat else if f =? 13 then 4%nat else if f =? 14 then 8%nat else if f =? 15 then 10%nat (* floats *)
       else 16%nat          (* string views, vectors *)
  | CPtr _ => 8%nat
  | _ => 16%nat
  end.
(** Types with brackets (beside json): their method get is called. *)
Definition with_brackets (t : cpptype) : Prop :=
  match t with CSeq KVector _ | CMap _ _ _ => True | _ => False end.

(** Objects have their methods called through pointers; these types have them called on values: the two string views
    and the vectors. *)
Definition by_value (t : cpptype) : Prop :=
  match t with CBase f => f = 16 \/ f = 17 \/ f = 24 | CSeq KSimdVector _ => True | _ => False end.

(** The value of a key: numbers are 32-bit unsigned (8), texts are string views (17), variables have theirs. *)
Definition key_means (var : text -> option (dtype * Z)) (text_word : text -> Z) (k : key) : outcome (dtype * Z) :=
  match k with
  | KNum n => Ret (get_dtype (CBase 8), n mod 2 ^ 32)
  | KText s => Ret (get_dtype (CBase 17), text_word s)
  | KVar x => match var x with Some v => Ret v | None => Err end
  end.

Section Meaning.
Context {E : Type}.
(** The registered members; the values of arguments and of keys, with their types; conversions to the types of
    parameters; the effect of calling the function at an address; json functions (by name or by index) with their
    parameter types. *)
Variable members : list offer.
Variable arg_value : E -> mem -> outcome (dtype * Z).
Variable key_value : key -> mem -> outcome (dtype * Z).
Variable conv : dtype -> dtype -> Z -> mem -> outcome Z.
Variable ext : Z -> list Z -> mem -> outcome (Z * mem).
Variable json_params : bool -> list dtype.
Variable json_fun : bool -> Z.

(** The arguments as the function receives them. *)
Definition passes (m : mem) (vs : list (dtype * Z)) (params : list dtype) (ws : list Z) : Prop :=
  Forall2 (fun vp w => conv (fst (fst vp)) (snd vp) (snd (fst vp)) m = Ret w) (combine vs params) ws /\
  length vs = length params.
(** Keys of json objects are texts, keys of json arrays are numbers; a variable (of type [d]) that is neither is no
    key. *)
Definition by_name (k : key) (d : dtype) (b : bool) : Prop :=
  match k with
  | KNum _ => b = false
  | KText _ => b = true
  | KVar _ =>
      ptr_bit (ctrl_of d) = 0 /\ container (ctrl_of d) = 0 /\
      if b then t0 (ctrl_of d) = 16 \/ t0 (ctrl_of d) = 17 else 4 <= t0 (ctrl_of d) <= 11
  end.

(** An object of a type, and the memory. *)
Definition obj : Type := (cpptype * Z * mem)%type.
Definition calls (o : obj) (t : cpptype) (n : text) (vs : list (dtype * Z)) (o' : obj) : Prop :=
  let '(r, w, m) := o in
  (r = CPtr t \/ r = t /\ by_value t) /\
  exists by_ptr ret args f ws x m', first (a_method t n) members (OMethod t n by_ptr ret args f) /\
    passes m ((get_dtype r, w) :: vs) (get_dtype (if by_ptr then CPtr t else t) :: map get_dtype args) ws /\
    ext f ws m = Ret (x, m') /\ o' = (ret, x, m').
Inductive step : obj -> access E -> obj -> Prop :=
| step_read t n f off w m : first (a_field t n) members (OField t n f off) -> value_type f ->
    step (CPtr t, w, m) (AField n) (f, read (size_in_bytes f) ((w + off) mod 2 ^ 64) m, m)
| step_inner t n f off w m : first (a_field t n) members (OField t n f off) -> ~ value_type f ->
    step (CPtr t, w, m) (AField n) (CPtr f, (w + off) mod 2 ^ 64, m)
| step_call o t n es vs o' : Forall2 (fun e v => arg_value e (snd o) = Ret v) es vs -> calls o t n vs o' ->
    step o (ACall n es) o'
| step_get w m t k v o' : with_brackets t -> key_value k m = Ret v -> calls (CPtr t, w, m) t (lit "get") [v] o' ->
    step (CPtr t, w, m) (AIndex k) o'
| step_json w m k v b ws x m' : key_value k m = Ret v -> by_name k (fst v) b ->
    passes m [(get_dtype (CPtr (CBase 20)), w); v] (json_params b) ws ->
    ext (json_fun b) ws m = Ret (x, m') ->
    step (CPtr (CBase 20), w, m) (AIndex k) (CPtr (CBase 20), x, m').
Inductive steps : obj -> list (access E) -> obj -> Prop :=
| steps_end o : steps o [] o
| steps_more o a o' l o'' : step o a o' -> steps o' l o'' -> steps o (a :: l) o''.
End Meaning.

(** The linker names of distinct registered methods are distinct, and not those of the json functions. *)
Definition methods_apart (name : cpptype -> text -> outcome text) (json_name : bool -> text) (os : list offer) : Prop :=
  forall t n b ret args f, In (OMethod t n b ret args f) os -> forall s, name t n = Ret s ->
  (forall j, s <> json_name j) /\
  forall t' n' b' ret' args' f', In (OMethod t' n' b' ret' args' f') os -> name t' n' = Ret s -> t = t' /\ n = n'.

(** No brackets after a field or a method. *)
Fixpoint brackets_first {E} (l : list (access E)) : Prop :=
  match l with
  | [] => True
  | a :: l => if is_index a then brackets_first l else Forall (fun b => is_index b = false) l
  end.
