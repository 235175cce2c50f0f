(** Model of the names of types and functions: rapidudf/meta/dtype.cc DTypeFactory and GetTypeString,
    rapidudf/meta/function.cc GetFunctionName, GetMemberFuncName and GetCachedFunctionName. *)
From Coq Require Import Ascii String List Bool Arith ZArith.
Import ListNotations.
From Verif Require Import Base Lexer_Model Op_Model DType_Spec DType_Model DynObject_Model.
Local Open Scope Z_scope.

(** dtype_enums.h:84-108, kFundamentalTypeStrs *)
Definition fundamental_name (f : Z) : text :=
  nth (Z.to_nat f)
    (map lit ["invalid"; "void"; "pointer"; "bit"; "u8"; "i8"; "u16"; "i16"; "u32"; "i32"; "u64"; "i64"; "f16"; "f32";
              "f64"; "f80"; "std_string_view"; "string_view"; "string"; "fbs_string"; "json"; "Context"; "dyn_obj";
              "table"; "simd_vector_any"]%string) [].
(** dtype_enums.h:38-39, kCollectionTypeStrs *)
Definition collection_name (k : Z) : text :=
  nth (Z.to_nat k)
    (map lit [""; "array"; "vector"; "map"; "set"; "unordered_map"; "unordered_set"; "absl_span"; "tuple";
              "simd_vector"]%string) [].

(** dtype.cc:23-30: the two maps of DTypeFactory, newest entry first. The second is keyed by the type: for types
    that are neither pointers nor containers, == is equality of the control words. *)
Record factory : Type := Factory { by_name : list (text * dtype); by_type : list (dtype * text) }.
Definition no_names : factory := Factory [] [].
Definition find_type (l : list (dtype * text)) (d : dtype) : option text :=
  option_map snd (find (fun e => control (ctrl_of (fst e)) =? control (ctrl_of d)) l).
(** dtype.cc:41-54, GetNameByDType *)
Definition name_of_type (F : factory) (d : dtype) : text :=
  if is_ptr d || is_collection d then []
  else
    let f := t0 (ctrl_of d) in
    if (DATA_VOID <=? f) && (f <? 25) then fundamental_name f
    else match find_type (by_type F) d with Some n => n | None => [] end.
(** dtype.cc:56-62, GetDTypeByName *)
Definition type_of_name (F : factory) (n : text) : dtype :=
  match find_text (by_name F) n with Some d => d | None => dtype_invalid end.
(** dtype.cc:64-70, AddNameDType: emplace leaves an existing entry. *)
Definition add_name (n : text) (d : dtype) (F : factory) : factory * bool :=
  match find_text (by_name F) n with
  | Some _ => (F, false)
  | None =>
      (Factory ((n, d) :: by_name F)
         (match find_type (by_type F) d with Some _ => by_type F | None => (d, n) :: by_type F end), true)
  end.

Definition is_empty (t : text) : bool := match t with [] => true | _ => false end.
(** dtype.cc:233-258, GetTypeString *)
Definition type_string (F : factory) (d : dtype) : outcome text :=
  do! base <- ptr_to (elem_of d);
  let base_name := name_of_type F base in
  if is_empty base_name then Ret []
  else
    let star := if is_ptr d then lit "*" else [] in
    let coll := collection_name (container (ctrl_of d)) in
    if is_collection d then
      if is_map d || is_unordered_map d || is_tuple d then
        let key_name := name_of_type F (key_of d) in
        if is_empty key_name then Ret []
        else Ret (coll ++ lit "<" ++ key_name ++ lit "," ++ base_name ++ lit ">" ++ star)
      else Ret (coll ++ lit "<" ++ base_name ++ lit ">" ++ star)
    else Ret (base_name ++ star).

(** function.cc:29-40, GetFunctionName for one type *)
Definition function_name (F : factory) (op : text) (d : dtype) : outcome text :=
  do! s <- type_string F (elem_of d);
  Ret ((if is_simd_vector d then lit "simd_vector_" else []) ++ op ++ lit "_" ++ s).
(** function.cc:41-54, for two *)
Definition function_name2 (F : factory) (op : text) (d0 d1 : dtype) : outcome text :=
  do! s0 <- type_string F (elem_of d0);
  do! s1 <- type_string F (elem_of d1);
  Ret ((if is_simd_vector d0 || is_simd_vector d1 then lit "simd_vector_" else []) ++ op ++ lit "_" ++ s0 ++ lit "_" ++ s1).
(** function.cc:56-59 *)
Definition member_name (F : factory) (d : dtype) (member : text) : outcome text :=
  do! s <- type_string F d; Ret (s ++ lit "_" ++ member).

(** function.cc:66-90: the cache of one thread, keyed by the operator and the control word. *)
Definition name_cache : Type := list ((Z * Z) * text).
Definition cached_name (F : factory) (op : optok) (d : dtype) (c : name_cache) : outcome (name_cache * text) :=
  let key := (op_code op, control (ctrl_of d)) in
  match find (fun e => (fst (fst e) =? fst key) && (snd (fst e) =? snd key)) c with
  | Some e => Ret (c, snd e)
  | None => do! n <- function_name F (op_str op) d; Ret ((key, n) :: c, n)
  end.
Fixpoint cached_names (F : factory) (calls : list (optok * dtype)) (c : name_cache) : outcome (list text) :=
  match calls with
  | [] => Ret []
  | (op, d) :: calls =>
      do! (c, n) <- cached_name F op d c;
      do! r <- cached_names F calls c;
      Ret (n :: r)
  end.

(** A history of dtype.h:218-238 Add<T>, for types that are not pointers. *)
Fixpoint add_names (l : list (text * dtype)) (F : factory) : factory * list bool :=
  match l with
  | [] => (F, [])
  | (n, d) :: l => let (F', ok) := add_name n d F in let (F'', r) := add_names l F' in (F'', ok :: r)
  end.
Definition given (l : list (text * Z)) : list (text * dtype) := map (fun e => (fst e, get_dtype (CBase (snd e)))) l.
