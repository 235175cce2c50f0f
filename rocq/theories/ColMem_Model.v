(** Model of the memory of a table's column: rapidudf/table/column.cc:29-72 (Column), table.cc:111-181 (SetColumnSize and
    LoadColumn for elements that are numbers, bools and string views), table.h:86-98 (Set) and the vectors handed out
    (types/vector.h), byte by byte. *)
From Coq Require Import List ZArith Bool.
Import ListNotations.
From Verif Require Import Base Vector_Model.
Local Open Scope Z_scope.

(** Element types (meta/dtype.cc:361-400): Bit, or a type of [w] bytes.  Simplified: an element is its bytes. *)
Inductive kind := KBit | KBytes (w : nat).
Inductive cell := CBit (b : bool) | CBytes (l : list Z).

(** A block of memory: its bytes, whether the column got it from new[] (otherwise it is memory of the user), and whether
    it has been given to delete[].  Simplified: users' memory stays. *)
Record block := mk_block { b_bytes : list Z; b_new : bool; b_freed : bool }.
Definition heap := list block.

(** vector.h:60-135: data_ is the start of a block or null; size_ has 30 bits. *)
Record vector := mk_vector { v_data : option nat; v_size : Z; v_cap : Z; v_writable : bool }.
(** column.h:86-91; the vector is the field of the table that vector_ points at. *)
Record column := mk_column { c_vec : vector; c_memory : option nat; c_size : Z; c_own : bool }.
(** column.h:45-46 and the zeroed table. *)
Definition new_column : column := mk_column (mk_vector None 0 0 false) None 0 false.

(** Bytes of a block that is alive. *)
Definition alive (h : heap) (b : nat) : outcome (list Z) :=
  match nth_error h b with
  | Some x => if b_freed x then UB else Ret (b_bytes x)
  | None => UB
  end.
(** delete[]: undefined for memory that is not from new[] or has been deleted. *)
Definition delete (h : heap) (p : option nat) : outcome heap :=
  match p with
  | None => Ret h
  | Some b =>
      match nth_error h b with
      | Some x => if b_new x && negb (b_freed x) then Ret (upd h b (mk_block (b_bytes x) true true)) else UB
      | None => UB
      end
  end.

(** column.cc:63-71.  own_memory_ keeps its value. *)
Definition Clear (h : heap) (c : column) : outcome (heap * column) :=
  do! h' <- (if c_own c then delete h (c_memory c) else Ret h);
  Ret (h', mk_column (mk_vector None 0 0 false) None 0 (c_own c)).

(** column.cc:72. *)
Definition Unload (c : column) : column :=
  mk_column (mk_vector (v_data (c_vec c)) 0 (v_cap (c_vec c)) (v_writable (c_vec c))) (c_memory c) (c_size c) (c_own c).

(** column.cc:33-42: bytes for [n] elements; n / 8 is kept in a uint32_t. *)
Definition bytes_n (k : kind) (n : Z) : Z :=
  match k with
  | KBit => let m := wrapu 32 (n / 8) in if 0 <? n mod 8 then wrapu 32 (m + 1) else m
  | KBytes w => Z.of_nat w * n
  end.

Section Garbage.
(** What new[] finds in the memory: byte [i] of block [b].  Simplified: bits_set reads bytes that are not initialised, which
    is taken to give these. *)
Variable garbage : nat -> nat -> Z.
Definition uninitialised (b : nat) (n : Z) : list Z := map (fun i => wrapu 8 (garbage b i)) (seq 0 (Z.to_nat n)).

(** column.cc:31-51. *)
Definition ReserveMemory (k : kind) (n : Z) (h : heap) (c : column) : outcome (heap * column) :=
  if c_size c <? bytes_n k n then
    do! (h', _) <- Clear h c;
    let b := length h' in
    Ret (h' ++ [mk_block (uninitialised b (bytes_n k n)) true false],
         mk_column (mk_vector (Some b) 0 (wrapu 30 n) true) (Some b) (bytes_n k n) true)
  else Ret (h, c).

(** bit.h:67-75. *)
Definition bits_set (mem : list Z) (k : Z) (v : bool) : outcome (list Z) :=
  do! byte <- load mem (k / 8);
  store mem (k / 8) (new_byte v byte (k mod 8)).
(** An assignment to bytes [off, off + length l). *)
Definition blit (mem : list Z) (off : Z) (l : list Z) : outcome (list Z) :=
  if (off <? 0) || (Z.of_nat (length mem) <? off + Z.of_nat (length l)) then UB
  else Ret (firstn (Z.to_nat off) mem ++ l ++ skipn (Z.to_nat off + length l) mem).
(** table.cc:126-174: the assignment to element [i].  An element of another type cannot occur. *)
Definition put (k : kind) (mem : list Z) (i : Z) (x : cell) : outcome (list Z) :=
  match k, x with
  | KBit, CBit v => bits_set mem i v
  | KBytes w, CBytes l => blit mem (Z.of_nat w * i) l
  | _, _ => Err
  end.
(** table.cc:124-179. *)
Fixpoint fill (k : kind) (mem : list Z) (i : Z) (l : list cell) : outcome (list Z) :=
  match l with
  | [] => Ret mem
  | x :: l' => do! mem' <- put k mem i x; fill k mem' (i + 1) l'
  end.

(** table.cc:111-118. *)
Definition SetColumnSize (n : Z) (p : option nat) (c : column) : column :=
  let v := c_vec c in
  let same := match v_data v, p with Some a, Some b => Nat.eqb a b | None, None => true | _, _ => false end in
  mk_column (mk_vector (v_data v) (if same then wrapu 30 n else v_size v) (v_cap v) true) (c_memory c) (c_size c) (c_own c).

(** table.cc:120-180: [l] has the field of each row.  Simplified: as many rows as Count() (see C47). *)
Definition LoadColumn (k : kind) (l : list cell) (h : heap) (c : column) : outcome (heap * column) :=
  do! (h1, c1) <- ReserveMemory k (Z.of_nat (length l)) h c;
  do! h2 <- match c_memory c1 with
            | Some b =>
                match l with
                | [] => Ret h1
                | _ =>
                    do! mem <- alive h1 b;
                    do! mem' <- fill k mem 0 l;
                    Ret (upd h1 b (mk_block mem' (match nth_error h1 b with Some x => b_new x | None => false end) false))
                end
            | None => match l with [] => Ret h1 | _ => UB end
            end;
  Ret (h2, SetColumnSize (Z.of_nat (length l)) (c_memory c1) c1).

(** vector.h:261-273. *)
Definition SizeByBytes (k : kind) (v : vector) : Z :=
  match k with
  | KBit => if v_size v mod 8 =? 0 then v_size v / 8 else v_size v / 8 + 1
  | KBytes w => v_size v * Z.of_nat w
  end.
(** column.cc:53-61 with own = false, as table.h:98 calls it. *)
Definition SetData (k : kind) (v : vector) (h : heap) (c : column) : outcome (heap * column) :=
  do! (h', _) <- Clear h c;
  Ret (h', mk_column v (v_data v) (SizeByBytes k v) false).

(** vector.h:172-182, operator[]. *)
Definition get (k : kind) (h : heap) (v : vector) (i : Z) : outcome cell :=
  match v_data v with
  | None => UB
  | Some b =>
      do! mem <- alive h b;
      match k with
      | KBit => do! x <- bit_get mem (mk_vec 0 (v_size v) (v_cap v) (v_writable v)) i; Ret (CBit x)
      | KBytes w =>
          let off := Z.of_nat w * i in
          if (off <? 0) || (Z.of_nat (length mem) <? off + Z.of_nat w) then UB
          else Ret (CBytes (firstn w (skipn (Z.to_nat off) mem)))
      end
  end.

(** What happens to a column: it is loaded with the fields of the rows (the first read after a change), unloaded (rows
    added, UnloadColumn), cleared, or Set to a vector; and the user gets memory of their own. *)
Inductive op := Load (l : list cell) | Unloads | Clears | Sets (v : vector) | UserMemory (mem : list Z).
Definition step (k : kind) (o : op) (w : heap * column) : outcome (heap * column) :=
  let (h, c) := w in
  match o with
  | Load l => LoadColumn k l h c
  | Unloads => Ret (h, Unload c)
  | Clears => Clear h c
  | Sets v => SetData k v h c
  | UserMemory mem => Ret (h ++ [mk_block mem false false], c)
  end.
Fixpoint run (k : kind) (l : list op) (w : heap * column) : outcome (heap * column) :=
  match l with
  | [] => Ret w
  | o :: l' => do! w' <- step k o w; run k l' w'
  end.
(** column.cc:29, ~Column. *)
Definition destroy (w : heap * column) : outcome heap := do! (h, _) <- Clear (fst w) (snd w); Ret h.
End Garbage.
