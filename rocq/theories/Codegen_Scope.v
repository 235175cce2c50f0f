(** Specification, continued: programs in which every variable read was assigned and every path returns a
    value, operations that are never undefined, and evaluation that stops as early as it can. *)
From Coq Require Import Ascii String List Bool Arith ZArith.
Import ListNotations.
From Verif Require Import Base Lexer_Model Op_Model Number_Model Parser_Model Parser_Spec Ir_Model Codegen_Spec.

Definition member (x : text) (l : list text) : bool := existsb (text_eqb x) l.
(** Every name read is one of [vars], or pi or e. *)
Definition bound (vars : list text) (e : expr) : bool :=
  forallb (fun x => member x vars || text_eqb x (lit "pi") || text_eqb x (lit "e")) (reads e).
Definition assigns (op : optok) : bool := optok_eqb op OP_ASSIGN || existsb (optok_eqb op) (map fst compound).
Definition bound_expr (vars : list text) (e : expr) : bool :=
  match e with
  | EBin OP_ASSIGN (EDef _) a => bound vars a
  | EBin op (EVar x) a => if assigns op then member x vars && bound vars a else bound vars e
  | _ => bound vars e
  end.
(** The name a statement declares for those that follow it in its block *)
Definition declared (s : st) : list text := match s with StExpr (EBin OP_ASSIGN (EDef x) _) => [x] | _ => [] end.
(** Every variable is read only after its declaration, in the block of the declaration or one inside it. *)
Fixpoint scoped (vars : list text) (s : st) : bool :=
  let scoped_list := fix scoped_list (vars : list text) (l : list st) : bool :=
    match l with [] => true | s :: l' => scoped vars s && scoped_list (declared s ++ vars) l' end in
  match s with
  | StReturn None | StBreak | StContinue => true
  | StReturn (Some e) => bound vars e
  | StExpr e => bound_expr vars e
  | StWhile c b => bound vars c && scoped_list vars b
  | StIf c b es el =>
      bound vars c && scoped_list vars b && forallb (fun x => match x with (c, b) => bound vars c && scoped_list vars b end) es &&
      match el with Some b => scoped_list vars b | None => true end
  end.
Definition scoped_list : list text -> list st -> bool :=
  fix scoped_list (vars : list text) (l : list st) : bool :=
    match l with [] => true | s :: l' => scoped vars s && scoped_list (declared s ++ vars) l' end.
(** Every return statement has a value. *)
Fixpoint valued (s : st) : bool :=
  match s with
  | StReturn None => false
  | StWhile _ b => forallb valued b
  | StIf _ b es el =>
      forallb valued b && forallb (fun x => match x with (_, b) => forallb valued b end) es &&
      match el with Some b => forallb valued b | None => true end
  | _ => true
  end.

Section Within.
(** The operators that are never undefined, with the number of operands *)
Variable ok : optok -> nat -> bool.
(** Only such operators, and literals that fit their types *)
Fixpoint within (e : expr) : bool :=
  match e with
  | ENum v ty => match build_const (v, ty) with UB => false | _ => true end
  | EUn op a => ok op 1 && within a
  | EBin op a b => ok op 2 && within a && within b
  | ECond c a b => ok OP_CONDITIONAL 3 && within c && within a && within b
  | ECall f es =>
      forallb within es && match find_text function_operators f with Some (op, _) => ok op (length es) | None => true end
  | _ => true
  end.
Definition within_expr (e : expr) : bool :=
  match e with
  | EBin OP_ASSIGN (EDef _) a => within a
  | EBin OP_ASSIGN (EVar _) a => within a
  | EBin op _ b =>
      match find (fun p => optok_eqb (fst p) op) compound with
      | Some (_, op) => ok op 2 && within b
      | None => within e
      end
  | _ => within e
  end.
Fixpoint within_stmt (s : st) : bool :=
  match s with
  | StReturn None | StBreak | StContinue => true
  | StReturn (Some e) => within e
  | StExpr e => within_expr e
  | StWhile c b => within c && forallb within_stmt b
  | StIf c b es el =>
      within c && forallb within_stmt b && forallb (fun x => match x with (c, b) => within c && forallb within_stmt b end) es &&
      match el with Some b => forallb within_stmt b | None => true end
  end.
End Within.

(** *** Types of expressions *)
Section Types.
Variable llvm19 : bool.
Variable op_fun : optok -> vty -> option vty.
Variable fsig : text -> option (list vty * vty).
(** The conversions between operand types exist: equal types, or number types. *)
Definition convertible (s t : vty) : bool := vty_eqb s t || match s, t with TNum _, TNum _ => true | _, _ => false end.
Definition op_type (op : optok) (ts : list vty) : option vty :=
  match common ts with
  | Some t => if forallb (fun s => convertible s t) ts then result_type llvm19 op_fun op t else None
  | None => None
  end.
Fixpoint all_some {A} (l : list (option A)) : option (list A) :=
  match l with
  | [] => Some []
  | x :: l' => match x, all_some l' with Some a, Some m => Some (a :: m) | _, _ => None end
  end.
Fixpoint type_of (Γ : text -> option vty) (e : expr) : option vty :=
  match e with
  | EBool _ => Some TBit
  | ENum v ty => match build_const (v, ty) with Ret (CInt t _) | Ret (CFloat t _) => Some (TNum t) | _ => None end
  | EVar x =>
      match Γ x with
      | Some t => Some t
      | None => if text_eqb x (lit "pi") || text_eqb x (lit "e") then Some (TNum F64) else None
      end
  | EUn op a => match type_of Γ a with Some t => op_type op [t] | None => None end
  | EBin op a b => match type_of Γ a, type_of Γ b with Some s, Some t => op_type op [s; t] | _, _ => None end
  | ECond c a b =>
      match type_of Γ c, type_of Γ a, type_of Γ b with
      | Some u, Some s, Some t => if vty_eqb u TBit then op_type OP_CONDITIONAL [s; t] else None
      | _, _, _ => None
      end
  | ECall f es =>
      match all_some (map (type_of Γ) es) with
      | None => None
      | Some ts =>
          match find_text function_operators f with
          | Some (op, _) => op_type op ts
          | None =>
              match fsig f with
              | Some (ps, r) => if (length ts =? length ps) && forallb (fun p => convertible (fst p) (snd p)) (combine ts ps) then Some r else None
              | None => None
              end
          end
      end
  | _ => None
  end.
End Types.

(** *** Evaluation of only what is needed *)
Section Lazy.
Context {V W : Type}.
Variable oper : optok -> vty -> list V -> option V.
Variable conv : vty -> vty -> V -> option V.
Variable ext : text -> W -> list V -> W * V.
Variable konst_val : konst -> V.
Variable truth : V -> bool.
Variable llvm19 : bool.
Variable op_fun : optok -> vty -> option vty.
Variable fsig : text -> option (list vty * vty).
Notation type_of := (type_of llvm19 op_fun fsig).
(** The types of the variables *)
Definition types (ρ : env) (x : text) : option vty := option_map fst (ρ x : option (vty * V)).
(** As [eval], but a && b and a || b do not evaluate b if the value of a decides, and c ? a : b evaluates
    one of a and b, and converts it to the type of the whole. *)
Fixpoint eval_lazy (ρ : env) (w : W) (e : expr) : outcome (W * (vty * V)) :=
  let evals := fix evals w (es : list expr) : outcome (W * list (vty * V)) :=
    match es with
    | [] => Ret (w, [])
    | e :: es' => do! (w, x) <- eval_lazy ρ w e; do! (w, xs) <- evals w es'; Ret (w, x :: xs)
    end in
  match e with
  | EBin OP_LOGIC_AND a b =>
      do! (w, x) <- eval_lazy ρ w a;
      if negb (truth (snd x)) then Ret (w, x)
      else do! (w, y) <- eval_lazy ρ w b; do! r <- apply_op oper conv llvm19 op_fun OP_LOGIC_AND [x; y]; Ret (w, r)
  | EBin OP_LOGIC_OR a b =>
      do! (w, x) <- eval_lazy ρ w a;
      if truth (snd x) then Ret (w, x)
      else do! (w, y) <- eval_lazy ρ w b; do! r <- apply_op oper conv llvm19 op_fun OP_LOGIC_OR [x; y]; Ret (w, r)
  | ECond c a b =>
      do! (w, z) <- eval_lazy ρ w c;
      do! t <- typed (type_of (types ρ) e);
      do! (w, x) <- (if truth (snd z) then eval_lazy ρ w a else eval_lazy ρ w b);
      do! v <- convert conv x t; Ret (w, (t, v))
  | EUn op a => do! (w, x) <- eval_lazy ρ w a; do! r <- apply_op oper conv llvm19 op_fun op [x]; Ret (w, r)
  | EBin op a b =>
      do! (w, x) <- eval_lazy ρ w a; do! (w, y) <- eval_lazy ρ w b;
      do! r <- apply_op oper conv llvm19 op_fun op [x; y]; Ret (w, r)
  | ECall f es =>
      do! (w, xs) <- evals w es;
      match find_text function_operators f with
      | Some (op, _) => do! r <- apply_op oper conv llvm19 op_fun op xs; Ret (w, r)
      | None =>
          do! (ts, rt) <- typed (fsig f);
          do! vs <- convert_each conv xs ts;
          let (w, v) := ext f w vs in Ret (w, (rt, v))
      end
  | _ => eval oper conv (total ext) konst_val llvm19 op_fun fsig ρ w e
  end.
End Lazy.
(** No function is called (operators written as functions are not calls). *)
Fixpoint no_calls (e : expr) : bool :=
  match e with
  | EUn _ a => no_calls a
  | EBin _ a b => no_calls a && no_calls b
  | ECond c a b => no_calls c && no_calls a && no_calls b
  | ECall f es => forallb no_calls es && match find_text function_operators f with Some _ => true | None => false end
  | _ => true
  end.

(** *** What the theorems assume of a function and a call *)
(** Statements [simple] (no strings, arrays, members; assignments only as statements; a declaration computes
    its value), nothing after a statement that leaves, every name declared once, and an argument for each
    parameter. *)
Record fits {V} (params : list (vty * text)) (args : list V) (body : list stmt) : Prop := {
  fit_simple : forallb simple (map denote_stmt body) = true;
  fit_shaped : shaped_list (map denote_stmt body) = true;
  fit_names : names_ok params (map denote_stmt body);
  fit_types : Forall (fun p => fst p <> TVoid) params;
  fit_args : length args = length params }.

