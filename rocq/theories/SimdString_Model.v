(** Model of rapidudf/functions/simd/string.cc.
    [N] is the number of byte lanes (16, 32 or 64 on current hardware), a parameter.  A string_view is
    the list of its bytes; reading outside it is undefined behaviour. *)
From Coq Require Import List ZArith Bool.
Import ListNotations.
From Verif Require Import Base StringView_Model Vector_Spec Vector_Model Simd_Model.
Local Open Scope Z_scope.

(** string.cc:37-66, simd_string_find_char_impl; the int result wraps. *)
Definition find_char (N : Z) (s : list Z) (ch : Z) : outcome Z :=
  let len := zlen s in
  do! r <- simd_search (fuel_for len) 0 len N
    (fun idx => do! v <- loadU s idx N;
       Ret (match find_first_true (map (fun b => b =? ch) v) with Some found => Some (wraps 32 (found + idx)) | None => None end));
  match r with
  | inr r => Ret r
  | inl idx =>
      if idx =? len then Ret (-1)
      else
        let remaining := len - idx in
        do! v <- loadN 0 s idx remaining N;
        match find_first_true (map (fun b => b =? ch) v) with
        | Some found => if found <? remaining then Ret (wraps 32 (found + idx)) else Ret (-1)
        | None => Ret (-1)
        end
  end.

(** hn::And(mask, hn::Not(hn::SetOnlyFirst(mask))): clears the first true lane. *)
Fixpoint clear_first (mask : list bool) : list bool :=
  match mask with [] => [] | true :: m => false :: m | false :: m => false :: clear_first m end.

(** string.cc:95-106 and 122-135, the loop over the candidate lanes of a block: [stop found] leaves it,
    [test found] accepts the candidate. *)
Fixpoint scan (fuel : nat) (mask : list bool) (stop : Z -> bool) (test : Z -> outcome bool) : outcome (option Z) :=
  match fuel with
  | O => Hang
  | S fuel =>
      match find_first_true mask with
      | None => Ret None
      | Some found =>
          if stop found then Ret None
          else
            do! ok <- test found;
            if ok then Ret (Some found) else scan fuel (clear_first mask) stop test
      end
  end.

(** memcmp(a + i, b + j, n) == 0 *)
Fixpoint same (a b : list Z) : bool :=
  match a, b with [] , [] => true | x :: a', y :: b' => (x =? y) && same a' b' | _, _ => false end.
Definition memcmp_eq (a : list Z) (i : Z) (b : list Z) (j n : Z) : outcome bool :=
  do! x <- loadU a i n; do! y <- loadU b j n; Ret (same x y).

(** string.cc:68-136, simd_string_find_string_impl.  The body compares the bytes after idx + first_pos
    (string.cc:99), the tail those after idx + found (string.cc:129). *)
Definition find_string (N : Z) (s part : list Z) : outcome Z :=
  let len := zlen s in
  let part_len := zlen part in
  if len <? part_len then Ret (-1)
  else if part_len =? 1 then do! c <- load part 0; find_char N s c
  else
    let first_pos := 0 in
    let last_pos := wrapu 64 (part_len - 1) in
    do! cmp_first <- load part first_pos;
    do! cmp_last <- load part last_pos;
    (* `idx <= len - (N + part_len - 1)` is `idx + N <= len - part_len + 1` *)
    do! r <- simd_search (fuel_for len) 0 (len - part_len + 1) N
      (fun idx =>
         do! v0 <- loadU s (idx + first_pos) N;
         do! v1 <- loadU s (idx + last_pos) N;
         let mask := zip2 andb (map (fun b => b =? cmp_first) v0) (map (fun b => b =? cmp_last) v1) in
         do! r <- scan (S (length mask)) mask (fun _ => false)
           (fun found => if part_len =? 2 then Ret true
                         else memcmp_eq s (idx + first_pos + 1) part 1 (part_len - 2));
         Ret (match r with Some found => Some (wraps 32 (found + idx)) | None => None end));
    match r with
    | inr r => Ret r
    | inl idx =>
        if len - part_len <? idx then Ret (-1)
        else
          let remaining := len - idx - part_len + 1 in
          do! v0 <- loadN 0 s idx remaining N;
          do! v1 <- loadN 0 s (idx + last_pos) remaining N;
          let mask := zip2 andb (map (fun b => b =? cmp_first) v0) (map (fun b => b =? cmp_last) v1) in
          do! r <- scan (S (length mask)) mask (fun found => remaining <=? found)
            (fun found => if part_len =? 2 then Ret true
                          else memcmp_eq s (idx + found + 1) part 1 (part_len - 2));
          Ret (match r with Some found => wraps 32 (found + idx) | None => -1 end)
    end.

(** string.cc:178-186 and 195-204: the loop that records every true lane of a block. *)
Fixpoint collect (fuel : nat) (mask : list bool) (stop : Z -> bool) (idx : Z) (acc : list Z) : outcome (list Z) :=
  match fuel with
  | O => Hang
  | S fuel =>
      match find_first_true mask with
      | None => Ret acc
      | Some found =>
          if stop found then Ret acc
          else collect fuel (clear_first mask) stop idx (acc ++ [wrapu 32 (idx + found)])
      end
  end.

(** string.cc:162-206, simd_string_split_by_char_impl: the positions, as uint32_t. *)
Definition char_positions (N : Z) (s : list Z) (ch : Z) : outcome (list Z) :=
  let len := zlen s in
  do! (idx, acc) <- simd_loop (fuel_for len) 0 len N
    (fun idx acc => do! v <- loadU s idx N;
       collect (S (Z.to_nat N)) (map (fun b => b =? ch) v) (fun _ => false) idx acc) [];
  if idx =? len then Ret acc
  else
    let remaining := len - idx in
    do! v <- loadN 0 s idx remaining N;
    collect (S (Z.to_nat N)) (map (fun b => b =? ch) v) (fun found => remaining <=? found) idx acc.

(** string.cc:208-225, the loop of simd_string_split_by_string_impl: [data] is the rest of the text, at
    [offset]. *)
Fixpoint string_positions_loop (fuel : nat) (N : Z) (data sep : list Z) (offset : Z) (acc : list Z)
  : outcome (list Z) :=
  match fuel with
  | O => Hang
  | S fuel =>
      do! idx <- find_string N data sep;
      if 0 <=? idx then
        string_positions_loop fuel N (skipn (Z.to_nat (idx + zlen sep)) data) sep
          (wrapu 32 (offset + (idx + zlen sep))) (acc ++ [wrapu 32 (offset + idx)])
      else Ret acc
  end.
Definition string_positions (N : Z) (s sep : list Z) : outcome (list Z) :=
  if zlen sep =? 1 then do! c <- load sep 0; char_positions N s c
  else string_positions_loop (S (length s)) N s sep 0 [].

(** std::string_view::substr(pos, n): throws if pos > size(). *)
Definition substr (s : list Z) (pos n : Z) : outcome (list Z) :=
  if zlen s <? pos then Err else Ret (window s pos (Z.min n (zlen s - pos))).

(** string.cc:249-265 and 272-290: the pieces between the positions; [k] is the separator's length. *)
Definition keep (ss : list (list Z)) (part : list Z) : list (list Z) :=
  match part with [] => ss | _ => ss ++ [part] end.
Fixpoint pieces (s : list Z) (k : Z) (positions : list Z) (last_pos : Z) (ss : list (list Z))
  : outcome (list (list Z)) :=
  match positions with
  | [] =>
      if last_pos <? zlen s then do! part <- substr s last_pos (2 ^ 64 - 1); Ret (keep ss part) else Ret ss
  | pos :: positions' =>
      do! ss <- (if negb (pos =? last_pos) then
                   do! part <- substr s last_pos (wrapu 64 (pos - last_pos)); Ret (keep ss part)
                 else Ret ss);
      pieces s k positions' (pos + k) ss
  end.
(** string.cc:245-267, simd_string_split_by_char *)
Definition split_by_char (N : Z) (s : list Z) (ch : Z) : outcome (list (list Z)) :=
  do! positions <- char_positions N s ch; pieces s 1 positions 0 [].
(** string.cc:269-292, simd_string_split_by_string *)
Definition split_by_string (N : Z) (s sep : list Z) : outcome (list (list Z)) :=
  do! positions <- string_positions N s sep; pieces s (zlen sep) positions 0 [].
