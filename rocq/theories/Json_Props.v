(** C78: accesses to a JSON argument give the part of the document that the path names, and comparisons with it compare
    the numbers and texts of the document. *)
From Coq Require Import Ascii String List Bool Arith ZArith Reals Floats.SpecFloat Lia Lra.
Import ListNotations.
From Flocq Require Import Core BinarySingleNaN.
From Verif Require Import Base Lexer_Model DType_Spec DType_Model Op_Model Number_Model Ir_Model Scalar_Model Scalar_Spec Names_Model Members_Model
  StringView_Spec StringView_Model Access_Spec Access_Model Json_Spec Json_Model Json_Proofs JsonCmp_Proofs JsonTotal_Spec JsonTotal_Proofs.
Local Open Scope Z_scope.

(** ** Accesses *)
(** x["a"][1]["b"]: if the path exists in the document, the script gets the document at its end. Keys are numbers,
    texts, and variables of integer and string view types. *)
Theorem C78_path : forall E arg_ty (arg_value : E -> mem -> outcome (dtype * Z)) var text_word text_of,
  (forall s, text_of (text_word s) = Some s) -> forall F R H a d ks ss d' m,
  stored H a d -> Forall2 (names var text_of) ks ss -> parts d ss d' ->
  exists b, run_chain arg_ty arg_value var text_word key_cast (call_json H text_of) getter F R json_ptr a (map AIndex ks) m
      = Ret (json_ptr, Val json_ptr (Imm b), m) /\ stored H b d'.
Proof. exact @path. Qed.
Print Assumptions C78_path.
(** Conversely a chain that has a value is a path of the document. *)
Theorem C78_path_only : forall E arg_ty (arg_value : E -> mem -> outcome (dtype * Z)) var text_word text_of,
  (forall s, text_of (text_word s) = Some s) -> forall F R H a d ks ss m T v m',
  stored H a d -> Forall2 (names var text_of) ks ss ->
  run_chain arg_ty arg_value var text_word key_cast (call_json H text_of) getter F R json_ptr a (map AIndex ks) m = Ret (T, v, m') ->
  exists d' b, parts d ss d' /\ stored H b d' /\ T = json_ptr /\ v = Val json_ptr (Imm b) /\ m' = m.
Proof. exact @path_only. Qed.
Print Assumptions C78_path_only.
(** A name for something that is not an object, or an index for something that is not an array, is an error. *)
Theorem C78_path_kind : forall E arg_ty (arg_value : E -> mem -> outcome (dtype * Z)) var text_word text_of,
  (forall s, text_of (text_word s) = Some s) -> forall F R H a d ks ss s rest d' m,
  stored H a d -> Forall2 (names var text_of) ks (ss ++ s :: rest) -> parts d ss d' -> right_kind d' s = false ->
  run_chain arg_ty arg_value var text_word key_cast (call_json H text_of) getter F R json_ptr a (map AIndex ks) m = Err.
Proof. exact @path_kind. Qed.
Print Assumptions C78_path_kind.
(** But a member that does not exist, or an index outside the array, is undefined behaviour, not an error. *)
Theorem C78_path_missing_refuted : forall E arg_ty (arg_value : E -> mem -> outcome (dtype * Z)) var text_word text_of,
  (forall s, text_of (text_word s) = Some s) -> forall F R H a d ks ss s rest d' m,
  stored H a d -> Forall2 (names var text_of) ks (ss ++ s :: rest) -> parts d ss d' -> right_kind d' s = true ->
  (forall d'', ~ part d' s d'') ->
  run_chain arg_ty arg_value var text_word key_cast (call_json H text_of) getter F R json_ptr a (map AIndex ks) m = UB.
Proof. exact @path_missing. Qed.
Print Assumptions C78_path_missing_refuted.
(** A variable of type std::string_view as a key passes the checks, but no code can be generated. *)
Theorem C78_std_key_refuted : forall E arg_ty (arg_value : E -> mem -> outcome (dtype * Z)) var text_word text_of F R H a x w m,
  var x = Some (get_dtype (CBase DATA_STD_STRING_VIEW), w) ->
  (exists r, validate_chain arg_ty var getter F R json_ptr [AIndex (KVar x)] = Ret r) /\
  run_chain arg_ty arg_value var text_word key_cast (call_json H text_of) getter F R json_ptr a (map AIndex [KVar x]) m = Err.
Proof. intros E arg_ty arg_value var text_word text_of F R H a x w m. exact (std_key arg_ty arg_value var text_word text_of F R H a x w m). Qed.
Print Assumptions C78_std_key_refuted.

(** ** Comparisons with numbers *)
(** Not for every number (the full claim): for a number of the document that is a value of the type compared with.
    Then == != < <= > >= answer for the numbers themselves, with the document on either side, whatever other functions
    [fs] the script uses. *)
Theorem C78_compare_partial : forall H junk fs op n a d c x y b b', n <> F80 -> stored H a d -> number d = Some x -> representable n x -> denotes n c y ->
  answer op (Rcompare x y) = Some b -> answer op (Rcompare y x) = Some b' ->
  compare H junk fs op (SJson a) (SNum n c) = Ret b /\ compare H junk fs op (SNum n c) (SJson a) = Ret b'.
Proof. exact compare_props. Qed.
Print Assumptions C78_compare_partial.
(** With a float or a double, other numbers are rounded first, ... *)
Theorem C78_compare_rounded : forall H junk fs op n a d c x y b b', n = F32 \/ n = F64 -> stored H a d -> number d = Some x ->
  (Rabs (rounded n x) < bpow radix2 (fmt_emax n))%R -> denotes n c y ->
  answer op (Rcompare (rounded n x) y) = Some b -> answer op (Rcompare y (rounded n x)) = Some b' ->
  compare H junk fs op (SJson a) (SNum n c) = Ret b /\ compare H junk fs op (SNum n c) (SJson a) = Ret b'.
Proof. exact compare_rounded. Qed.
Print Assumptions C78_compare_rounded.
(** ... so that each of them is equal to some other number. *)
Theorem C78_compare_rounds_refuted : forall H junk fs n a d x, n = F32 \/ n = F64 -> stored H a d -> number d = Some x ->
  (Rabs (rounded n x) < bpow radix2 (fmt_emax n))%R -> ~ representable n x ->
  exists c y, denotes n c y /\ y <> x /\ compare H junk fs OP_EQUAL (SJson a) (SNum n c) = Ret true.
Proof. exact rounding_refuted. Qed.
Print Assumptions C78_compare_rounds_refuted.
(** Every integer of the document that the integer type does not have is equal to another integer. *)
Theorem C78_compare_wraps_refuted : forall H junk fs n a z, ty_integer n = true -> stored H a (DInt z) -> holds n z = false ->
  exists z', holds n z' = true /\ z' <> z /\ compare H junk fs OP_EQUAL (SJson a) (SNum n (encode n z')) = Ret true.
Proof. exact wraps_refuted. Qed.
Print Assumptions C78_compare_wraps_refuted.
(** Comparisons of a real number with integers forget its fraction: 3.9 == 3. *)
Theorem C78_compare_truncates_refuted : forall H junk fs n a f, ty_integer n = true -> stored H a (DReal f) -> is_finite_SF f = true ->
  holds n (Ztrunc (SF2R radix2 f)) = true ->
  compare H junk fs OP_EQUAL (SJson a) (SNum n (encode n (Ztrunc (SF2R radix2 f)))) = Ret true.
Proof. exact truncated_refuted. Qed.
Print Assumptions C78_compare_truncates_refuted.
Theorem C78_compare_truncated : forall H junk fs op n a f c y b b', ty_integer n = true -> stored H a (DReal f) -> is_finite_SF f = true ->
  holds n (Ztrunc (SF2R radix2 f)) = true -> denotes n c y ->
  answer op (Rcompare (IZR (Ztrunc (SF2R radix2 f))) y) = Some b -> answer op (Rcompare y (IZR (Ztrunc (SF2R radix2 f)))) = Some b' ->
  compare H junk fs op (SJson a) (SNum n c) = Ret b /\ compare H junk fs op (SNum n c) (SJson a) = Ret b'.
Proof. exact truncated. Qed.
Print Assumptions C78_compare_truncated.
(** A real number whose integer part the integer type does not have: undefined behaviour. *)
Theorem C78_compare_range_refuted : forall H junk fs op n a f c, ty_integer n = true -> stored H a (DReal f) -> is_finite_SF f = true ->
  holds n (Ztrunc (SF2R radix2 f)) = false ->
  compare H junk fs op (SJson a) (SNum n c) = UB /\ compare H junk fs op (SNum n c) (SJson a) = UB.
Proof. exact too_large. Qed.
Print Assumptions C78_compare_range_refuted.
(** Documents that are no numbers: an error ... *)
Theorem C78_compare_kind : forall H junk fs op n a d c, n <> F80 -> stored H a d -> (forall b, d <> DBool b) -> (forall z, d <> DInt z) -> (forall f, d <> DReal f) ->
  compare H junk fs op (SJson a) (SNum n c) = Err /\ compare H junk fs op (SNum n c) (SJson a) = Err.
Proof. exact kind_props. Qed.
Print Assumptions C78_compare_kind.
(** ... except that true is equal to 1, and false to 0, for all types but u64, i64 and f64. *)
Theorem C78_compare_bool_number_refuted : forall H junk fs n a b, n <> F80 -> stored H a (DBool b) ->
  exists c, denotes n c (if b then 1 else 0) /\
    compare H junk fs OP_EQUAL (SJson a) (SNum n c) = match n with U64 | I64 | F64 => Err | _ => Ret true end.
Proof. exact bool_number_props. Qed.
Print Assumptions C78_compare_bool_number_refuted.

(** ** Comparisons with strings *)
(** Not for all strings: shorter than 2^31 bytes. Order: byte by byte. *)
Theorem C78_compare_string_partial : forall H junk fs op a s t j v b b', stored H a (DString s) -> of_string j (codes t) = Ret v ->
  Z.of_nat (length s) < 2 ^ 31 -> Z.of_nat (length t) < 2 ^ 31 ->
  answer op (lex (codes s) (codes t)) = Some b -> answer op (lex (codes t) (codes s)) = Some b' ->
  compare H junk fs op (SJson a) (SStr v) = Ret b /\ compare H junk fs op (SStr v) (SJson a) = Ret b'.
Proof. exact compare_string. Qed.
Print Assumptions C78_compare_string_partial.
Theorem C78_compare_string_kind : forall H junk fs op a d v, stored H a d -> (forall s, d <> DString s) ->
  compare H junk fs op (SJson a) (SStr v) = Err /\ compare H junk fs op (SStr v) (SJson a) = Err.
Proof. exact kind_string. Qed.
Print Assumptions C78_compare_string_kind.

(** ** Other operands *)
(** Comparisons with a boolean, and of two documents, pass the checks but no code can be generated. *)
Theorem C78_compare_bool_refuted : forall H junk fs op a b,
  (exists r, check_compare (type_of (SJson a)) (type_of (SBit b)) = Ret r) /\ (exists r, check_compare (type_of (SBit b)) (type_of (SJson a)) = Ret r) /\
  compare H junk fs op (SJson a) (SBit b) = Err /\ compare H junk fs op (SBit b) (SJson a) = Err.
Proof. exact bool_refuted. Qed.
Print Assumptions C78_compare_bool_refuted.
Theorem C78_compare_documents_refuted : forall H junk fs op a a',
  (exists r, check_compare (type_of (SJson a)) (type_of (SJson a')) = Ret r) /\ compare H junk fs op (SJson a) (SJson a') = Err.
Proof. exact documents_refuted. Qed.
Print Assumptions C78_compare_documents_refuted.
(** Every comparison of values of a script has an answer or is an error, unless an integer is compared with a real
    number whose integer part its type does not have: that one is undefined. *)
Theorem C78_compare_defined : forall H junk fs op l r,
  proper H l -> proper H r -> comparison_op op -> ~ out_of_type H l r -> ~ out_of_type H r l ->
  (exists b, compare H junk fs op l r = Ret b) \/ compare H junk fs op l r = Err.
Proof. exact defined. Qed.
Print Assumptions C78_compare_defined.
Theorem C78_compare_undefined_refuted : forall H junk fs op l r,
  proper H l -> proper H r -> comparison_op op -> out_of_type H l r ->
  compare H junk fs op l r = UB /\ compare H junk fs op r l = UB.
Proof. exact undefined. Qed.
Print Assumptions C78_compare_undefined_refuted.
(** Operands of other kinds are refused. *)
Theorem C78_compare_other_kinds : forall H junk fs op l r, ~ comparable l r -> compare H junk fs op l r = Err.
Proof. exact other_kinds. Qed.
Print Assumptions C78_compare_other_kinds.
(** Arithmetic on a document is refused by the checks. *)
Theorem C78_arithmetic : forall a n c,
  check_arithmetic (type_of (SJson a)) (type_of (SNum n c)) = Err /\ check_arithmetic (type_of (SNum n c)) (type_of (SJson a)) = Err.
Proof. exact arithmetic. Qed.
Print Assumptions C78_arithmetic.

(** ** Conversions *)
(** return x["k"]: the checks accept it, but code is generated only if the script has a comparison of a document with
    that type; ... *)
Theorem C78_return_refuted : forall H junk fs n a, declared fs (FExtract (get_dtype (CBase (num_code n)))) = Ret false ->
  check_return (SJson a) (get_dtype (CBase (num_code n))) = Ret true /\ return_value H junk fs (SJson a) (get_dtype (CBase (num_code n))) = Err.
Proof. exact return_refuted. Qed.
Print Assumptions C78_return_refuted.
(** ... then a number of the document is returned as it is, if it is a value of the type. *)
Theorem C78_return_partial : forall H junk fs n a d x, declared fs (FExtract (get_dtype (CBase (num_code n)))) = Ret true ->
  stored H a d -> number d = Some x -> representable n x ->
  exists v, return_value H junk fs (SJson a) (get_dtype (CBase (num_code n))) = Ret (SNum n v) /\ denotes n v x.
Proof. exact return_props. Qed.
Print Assumptions C78_return_partial.
(** A truth value and a string are returned as they are; anything else in their place is an error, and so is a type
    that a value cannot be converted to. *)
Theorem C78_return_bool : forall H junk fs a d, declared fs (FExtract (get_dtype (CBase DATA_BIT))) = Ret true -> stored H a d ->
  return_value H junk fs (SJson a) (get_dtype (CBase DATA_BIT)) = match d with DBool b => Ret (SBit b) | _ => Err end.
Proof. exact return_bool. Qed.
Print Assumptions C78_return_bool.
Theorem C78_return_string : forall H junk fs a d, declared fs (FExtract (get_dtype (CBase DATA_STRING_VIEW))) = Ret true -> stored H a d ->
  (forall s, d = DString s -> short s) ->
  match d with
  | DString s => exists v, return_value H junk fs (SJson a) (get_dtype (CBase DATA_STRING_VIEW)) = Ret (SStr v) /\ of_string junk (codes s) = Ret v
  | _ => return_value H junk fs (SJson a) (get_dtype (CBase DATA_STRING_VIEW)) = Err
  end.
Proof. exact return_string. Qed.
Print Assumptions C78_return_string.
Theorem C78_return_refused : forall H junk fs v d, Function_Model.can_cast_to (type_of v) d = Ret false -> return_value H junk fs v d = Err.
Proof. exact return_refused. Qed.
Print Assumptions C78_return_refused.

(** ** Examples *)
(** {"a": [10, 4294967419, true], "s": "hi", "f": 3.5, "big": 9007199254740993} at 100 *)
Definition tx (s : string) : text := list_ascii_of_string s.
Definition half7 : spec_float := S754_finite false 7881299347898368 (-51).
Definition sample : heap := fun a =>
  if a =? 100 then Some (NObject [(tx "a", 1); (tx "s", 2); (tx "f", 3); (tx "big", 4)])
  else if a =? 1 then Some (NArray [5; 6; 7])
  else if a =? 2 then Some (NString (tx "hi"))
  else if a =? 3 then Some (NFloat half7)
  else if a =? 4 then Some (NUnsigned 9007199254740993)
  else if a =? 5 then Some (NInteger 10)
  else if a =? 6 then Some (NUnsigned 4294967419)
  else if a =? 7 then Some (NBool true)
  else None.
Definition document : doc :=
  DObject [(tx "a", DArray [DInt 10; DInt 4294967419; DBool true]); (tx "s", DString (tx "hi")); (tx "f", DReal half7); (tx "big", DInt 9007199254740993)].
Example sample_stored : stored sample 100 document.
Proof.
  eapply st_object; [reflexivity|reflexivity| |].
  - cbn. repeat constructor; cbn; intuition discriminate.
  - cbn. repeat (apply Forall2_cons); [|apply st_string; reflexivity|apply st_float; reflexivity|apply st_unsigned; [reflexivity|lia]|constructor].
    eapply st_array; [reflexivity|cbn; lia|]. repeat (apply Forall2_cons); [apply st_integer; [reflexivity|lia]|apply st_unsigned; [reflexivity|lia]|apply st_bool; reflexivity|constructor].
Qed.
Definition vars : text -> option (dtype * Z) := fun x =>
  if text_eqb x (tx "i") then Some (get_dtype (CBase DATA_I32), 1) else if text_eqb x (tx "v") then Some (get_dtype (CBase DATA_STD_STRING_VIEW), 0) else None.
Definition keys : list key := [KText (tx "a"); KVar (tx "i")].
Example keys_mean text_of : Forall2 (names vars text_of) keys [Member (tx "a"); At 1].
Proof. repeat constructor. eapply (names_int _ _ _ I32 9 1 1); reflexivity. Qed.
Example path_in_document : parts document [Member (tx "a"); At 1] (DInt 4294967419).
Proof. eapply parts_more; [apply part_member; left; reflexivity|]. eapply parts_more; [apply part_at; [lia|reflexivity]|]. constructor. Qed.
Example missing_member : right_kind document (Member (tx "z")) = true /\ forall d, ~ part document (Member (tx "z")) d.
Proof. split; [reflexivity|]. intros d P. inversion P as [|? ? ? I]; subst. cbn in I. intuition discriminate. Qed.
Example wrong_kind : right_kind document (At 0) = false. Proof. reflexivity. Qed.
Example std_variable : vars (tx "v") = Some (get_dtype (CBase DATA_STD_STRING_VIEW), 0). Proof. reflexivity. Qed.
(** x["a"][0] > 9 *)
Example ten_is_int : representable I32 (IZR 10). Proof. exists (encode I32 10). constructor. reflexivity. Qed.
Example ten_greater : compare sample [] [] OP_GREATER (SJson 5) (SNum I32 (encode I32 9)) = Ret true.
Proof.
  apply (C78_compare_partial sample [] [] OP_GREATER I32 5 (DInt 10) (encode I32 9) (IZR 10) (IZR 9) true false); try discriminate; try reflexivity.
  - apply st_integer; [reflexivity|lia].
  - exact ten_is_int.
  - constructor. reflexivity.
  - rewrite Rcompare_IZR. reflexivity.
  - rewrite Rcompare_IZR. reflexivity.
Qed.
(** x["a"][1] == 123: 4294967419 = 2^32 + 123 *)
Example wraps_example : stored sample 6 (DInt 4294967419) /\ holds I32 4294967419 = false /\ compare sample [] [] OP_EQUAL (SJson 6) (SNum I32 (VInt 123)) = Ret true.
Proof. split; [apply st_unsigned; [reflexivity|lia]|]. split; vm_compute; reflexivity. Qed.
(** x["f"] > 3 is false: 3.5 is truncated *)
Example truncates_example : compare sample [] [] OP_GREATER (SJson 3) (SNum I32 (VInt 3)) = Ret false. Proof. vm_compute. reflexivity. Qed.
Example truncates_hypotheses : is_finite_SF half7 = true /\ holds I32 (Ztrunc (SF2R radix2 half7)) = true.
Proof.
  split; [reflexivity|]. assert (Ztrunc (SF2R radix2 half7) = 3) as ->; [|reflexivity].
  assert (f_trunc half7 = Some 3) as Q by (vm_compute; reflexivity). rewrite trunc_value in Q by reflexivity. injection Q as <-. reflexivity.
Qed.
(** x["f"] < 200.0 as i8 of 1e3: too large *)
Definition thousand : spec_float := S754_finite false 8796093022208000 (-43).
Example too_large_example : compare (fun _ => Some (NFloat thousand)) [] [] OP_LESS (SJson 1) (SNum I8 (VInt 3)) = UB. Proof. vm_compute. reflexivity. Qed.
(** x["big"] == 9007199254740992.0 *)
Definition p53 : spec_float := S754_finite false 4503599627370496 1.
Example rounds_example : compare sample [] [] OP_EQUAL (SJson 4) (SNum F64 (VFlt p53)) = Ret true. Proof. vm_compute. reflexivity. Qed.
(** x["a"][2] == 1 *)
Example true_is_one : compare sample [] [] OP_EQUAL (SJson 7) (SNum I32 (VInt 1)) = Ret true /\ compare sample [] [] OP_EQUAL (SJson 7) (SNum I64 (VInt 1)) = Err.
Proof. split; vm_compute; reflexivity. Qed.
(** x["s"] == "hi" *)
Example string_example : exists v, of_string [] (codes (tx "hi")) = Ret v /\ compare sample [] [] OP_EQUAL (SJson 2) (SStr v) = Ret true /\ compare sample [] [] OP_EQUAL (SJson 5) (SStr v) = Err.
Proof. eexists. split; [vm_compute; reflexivity|]. split; vm_compute; reflexivity. Qed.
(** if (x["a"][0] > 9) { return x["a"][1]; } *)
Example return_example : exists fs, check_compare (type_of (SJson 5)) (type_of (SNum I64 (VInt 9))) = Ret fs /\
  declared fs (FExtract (get_dtype (CBase (num_code I64)))) = Ret true /\ declared fs (FExtract (get_dtype (CBase (num_code F64)))) = Ret false /\
  return_value sample [] fs (SJson 6) (get_dtype (CBase (num_code I64))) = Ret (SNum I64 (VInt 4294967419)).
Proof. eexists. split; [vm_compute; reflexivity|]. repeat split; vm_compute; reflexivity. Qed.
(** The values of the sample document, and a real number beyond a byte *)
Example proper_example : proper sample (SJson 3) /\ proper sample (SNum I32 (VInt 3)) /\ comparison_op OP_LESS /\ ~ out_of_type sample (SJson 3) (SNum I32 (VInt 3)).
Proof.
  split; [|split; [now constructor|split; [now exists false|]]].
  - apply (p_document _ 3 (DReal half7)); [apply st_float; reflexivity|discriminate].
  - intros Q. inversion Q as [n c a f S I NH]; subst. inversion S as [| | | |? ? E V| | |]; subst. injection E as <-. specialize (NH eq_refl).
    pose proof (proj2 truncates_hypotheses). congruence.
Qed.
Example out_of_type_example : out_of_type (fun _ => Some (NFloat thousand)) (SJson 1) (SNum I8 (VInt 3)).
Proof.
  apply (out_real _ I8 (VInt 3) 1 thousand); [apply st_float; reflexivity|reflexivity|]. intros _.
  assert (f_trunc thousand = Some 1000) as Q by (vm_compute; reflexivity). rewrite trunc_value in Q by reflexivity. assert (Ztrunc (SF2R radix2 thousand) = 1000) as -> by congruence. reflexivity.
Qed.
Example other_kinds_example : ~ comparable (SJson 7) (SBit true) /\ ~ comparable (SNum I32 (VInt 1)) (SBit true) /\ ~ comparable (SJson 4) (SNum F80 (VFlt half7)).
Proof. repeat split; intros Q; inversion Q; subst; auto. Qed.
Example return_bool_example : return_value sample [] [FExtract (get_dtype (CBase DATA_BIT))] (SJson 7) (get_dtype (CBase DATA_BIT)) = Ret (SBit true) /\
  return_value sample [] [FExtract (get_dtype (CBase DATA_BIT))] (SJson 5) (get_dtype (CBase DATA_BIT)) = Err /\
  Function_Model.can_cast_to (type_of (SBit true)) (get_dtype (CBase DATA_STRING_VIEW)) = Ret false.
Proof. split; [vm_compute; reflexivity|]. split; vm_compute; reflexivity. Qed.
