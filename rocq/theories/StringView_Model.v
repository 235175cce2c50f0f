(** Model of rapidudf/types/string_view.{h,cc}. *)
From Coq Require Import List ZArith Bool.
Import ListNotations.
From Verif Require Import Base.
Local Open Scope Z_scope.

(** string_view.h:47-48 *)
Definition kPrefixSize : Z := 4.
Definition kInlineSize : Z := 12.

(** string_view.h:225-230, the members.  The pointer arm of the union is represented by the bytes
    it points at. *)
Inductive payload := Inlined (b : list Z) | Data (b : list Z).
Record sv := mk_sv { size_ : Z; prefix_ : list Z; value_ : payload }.

(** Bytes [0, n) of a buffer; reading past its end is undefined. *)
Definition read (b : list Z) (n : Z) : outcome (list Z) :=
  if n <=? Z.of_nat (length b) then Ret (firstn (Z.to_nat n) b) else UB.

(** memcmp(a, b, n): the difference of the first differing bytes. *)
Fixpoint memcmp_bytes (a b : list Z) : Z :=
  match a, b with
  | x :: a', y :: b' => if x =? y then memcmp_bytes a' b' else x - y
  | _, _ => 0
  end.
Definition memcmp (a b : list Z) (n : Z) : outcome Z :=
  do! x <- read a n; do! y <- read b n; Ret (memcmp_bytes x y).

(** string_view.h:106, isInline(uint32_t) *)
Definition isInline (n : Z) : bool := n <=? kInlineSize.

Definition zeros (n : Z) : list Z := repeat 0 (Z.to_nat n).

(** string_view.h:55-75, StringView(data, len).  [data] is the byte buffer the pointer designates; [len] is
    an int32_t stored into a uint32_t.  [junk] is what the union holds when the constructor leaves it
    uninitialised (empty string). *)
Definition make (junk : list Z) (data : list Z) (len : Z) : outcome sv :=
  let size := wrapu 32 len in
  if isInline size then
    if size =? 0 then Ret (mk_sv size (zeros kPrefixSize) (Inlined junk))
    else
      do! d <- read data size;
      (* value_.data = nullptr; memcpy(prefix_, data, size_) over prefix_ and the union *)
      let all := d ++ zeros (12 - size) in
      Ret (mk_sv size (firstn 4 all) (Inlined (skipn 4 all)))
  else
    do! p <- read data kPrefixSize;
    Ret (mk_sv size p (Data data)).

(** string_view.h:99-102, StringView(const std::string&) / StringView(std::string_view): the size_t
    length is converted to int32_t. *)
Definition of_string (junk s : list Z) : outcome sv := make junk s (wraps 32 (Z.of_nat (length s))).

(** string_view.h:109, data(): prefix_ and the union are adjacent. *)
Definition data (v : sv) : list Z :=
  if isInline (size_ v) then prefix_ v ++ (match value_ v with Inlined b => b | Data b => [] end)
  else match value_ v with Inlined b => b | Data b => b end.

(** string_view.h:178, std::string_view(data(), size()) *)
Definition get_string_view (v : sv) : outcome (list Z) := read (data v) (size_ v).

(** Little-endian integer of a byte array. *)
Fixpoint le_int (b : list Z) : Z :=
  match b with [] => 0 | x :: b' => x + 256 * le_int b' end.

(** string_view.h:217-221 *)
Definition sizeAndPrefixAsInt64 (v : sv) : Z := size_ v + 2 ^ 32 * le_int (prefix_ v).
Definition inlinedAsInt64 (v : sv) : Z :=
  match value_ v with Inlined b => le_int b | Data _ => 0 end.
Definition prefixAsInt (v : sv) : Z := le_int (prefix_ v).

(** string_view.h:120-133, operator==.  (inlinedAsInt64 is only reached when both are inline.) *)
Definition sv_eq (a b : sv) : outcome bool :=
  if negb (sizeAndPrefixAsInt64 a =? sizeAndPrefixAsInt64 b) then Ret false
  else if isInline (size_ a) then
    Ret ((size_ a <=? kPrefixSize) || (inlinedAsInt64 a =? inlinedAsInt64 b))
  else
    match value_ a, value_ b with
    | Data da, Data db =>
        do! r <- memcmp (skipn 4 da) (skipn 4 db) (size_ a - kPrefixSize);
        Ret (r =? 0)
    | _, _ => UB
    end.

(** string_view.h:135 *)
Definition sv_ne (a b : sv) : outcome bool := do! r <- sv_eq a b; Ret (negb r).

(** string_view.h:140-157, compare.  min(uint32, uint32) - size_t is a size_t, converted to int32_t;
    size_ - other.size_ is a uint32_t, converted to int32_t. *)
Definition sv_compare (a b : sv) : outcome Z :=
  if negb (prefixAsInt a =? prefixAsInt b) then memcmp (prefix_ a) (prefix_ b) kPrefixSize
  else
    let size := wraps 32 (wrapu 64 (Z.min (size_ a) (size_ b) - kPrefixSize)) in
    let dsize := wraps 32 (wrapu 32 (size_ a - size_ b)) in
    if size <=? 0 then Ret dsize
    else if (size <=? kInlineSize) && isInline (size_ a) && isInline (size_ b) then
      match value_ a, value_ b with
      | Inlined ia, Inlined ib =>
          do! r <- memcmp ia ib size;
          Ret (if negb (r =? 0) then r else dsize)
      | _, _ => UB
      end
    else
      do! r <- memcmp (skipn 4 (data a)) (skipn 4 (data b)) size;
      Ret (if negb (r =? 0) then r else dsize).

(** string_view.h:159-165 *)
Definition sv_lt (a b : sv) : outcome bool := do! r <- sv_compare a b; Ret (r <? 0).
Definition sv_le (a b : sv) : outcome bool := do! r <- sv_compare a b; Ret (r <=? 0).
Definition sv_gt (a b : sv) : outcome bool := do! r <- sv_compare a b; Ret (0 <? r).
Definition sv_ge (a b : sv) : outcome bool := do! r <- sv_compare a b; Ret (0 <=? r).

(** string_view.cc:20-54, compare_string_view(op, left, right): the comparison UDFs call. *)
Inductive cmp_op := OpEqual | OpNotEqual | OpGreater | OpGreaterEqual | OpLess | OpLessEqual.
Definition compare_string_view (op : cmp_op) (l r : sv) : outcome bool :=
  match op with
  | OpEqual => sv_eq l r
  | OpNotEqual => sv_ne l r
  | OpGreater => sv_gt l r
  | OpGreaterEqual => sv_ge l r
  | OpLess => sv_lt l r
  | OpLessEqual => sv_le l r
  end.

(** ** absl string functions (an external library), as documented in absl/strings/match.h. *)
(** absl::StartsWith: prefix.empty() || (text.size() >= prefix.size() && memcmp(...) == 0) *)
Definition absl_starts_with (text p : list Z) : bool :=
  match p with
  | [] => true
  | _ => (length p <=? length text)%nat && (memcmp_bytes (firstn (length p) text) p =? 0)
  end.
(** absl::EndsWith *)
Definition absl_ends_with (text p : list Z) : bool :=
  match p with
  | [] => true
  | _ => (length p <=? length text)%nat &&
         (memcmp_bytes (skipn (length text - length p) text) p =? 0)
  end.
(** absl::StrContains: text.find(p, 0) != npos *)
Fixpoint absl_contains (text p : list Z) : bool :=
  absl_starts_with text p || match text with [] => false | _ :: t => absl_contains t p end.
(** absl::EqualsIgnoreCase on equal lengths: memcasecmp, comparing ascii_tolower of the bytes. *)
Definition absl_tolower (c : Z) : Z := if (c <? 65) || (90 <? c) then c else c + 32.
Fixpoint memcasecmp (a b : list Z) : Z :=
  match a, b with
  | x :: a', y :: b' =>
      if absl_tolower x =? absl_tolower y then memcasecmp a' b' else absl_tolower x - absl_tolower y
  | _, _ => 0
  end.
Definition absl_starts_with_ignore_case (text p : list Z) : bool :=
  (length p <=? length text)%nat && (memcasecmp (firstn (length p) text) p =? 0).
(** absl::StrContainsIgnoreCase: slide a window while text.size() >= p.size(). *)
Fixpoint absl_contains_ignore_case (text p : list Z) : bool :=
  if (length p <=? length text)%nat then
    absl_starts_with_ignore_case text p ||
    match text with [] => false | _ :: t => absl_contains_ignore_case t p end
  else false.

(** string_view.h:197-214: the predicates of StringView; the last two call the case-sensitive
    functions. *)
Definition sv_pred (f : list Z -> list Z -> bool) (s part : sv) : outcome bool :=
  do! a <- get_string_view s; do! b <- get_string_view part; Ret (f a b).
Definition contains := sv_pred absl_contains.
Definition starts_with := sv_pred absl_starts_with.
Definition ends_with := sv_pred absl_ends_with.
Definition contains_ignore_case := sv_pred absl_contains_ignore_case.
Definition starts_with_ignore_case := sv_pred absl_starts_with.
Definition ends_with_ignore_case := sv_pred absl_ends_with.
