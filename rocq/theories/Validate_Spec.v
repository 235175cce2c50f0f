(** Which scalar functions are well typed, written without reference to the checks or the code generator.
    Every expression has one type; the two sides of ?: have the same type; a variable keeps the type of its
    declaration; a function has one scope: a name is declared once, and is known from its declaration to the end
    of the function. *)
From Coq Require Import Ascii String List Bool Arith ZArith.
Import ListNotations.
From Verif Require Import Base Lexer_Model Op_Model Number_Model Parser_Model Parser_Spec Ir_Model Codegen_Spec Codegen_Scope.
From Verif Require Validate_Model.

Definition ctx : Type := text -> option vty.
Definition extend (Γ : ctx) (x : text) (t : vty) : ctx := fun y => if text_eqb y x then Some t else Γ y.

(** *** Expressions *)
Definition arithmetic (op : optok) : bool :=
  existsb (optok_eqb op) [OP_PLUS; OP_MINUS; OP_MULTIPLY; OP_DIVIDE; OP_MOD; OP_POW].
Definition logical (op : optok) : bool := existsb (optok_eqb op) [OP_LOGIC_AND; OP_LOGIC_OR].
(** The numbers that can be negated. Long double is not among them. *)
Definition negatable (n : numty) : bool := match n with I8 | I16 | I32 | I64 | F32 | F64 => true | _ => false end.
Definition pass (from to : vty) : bool := match from, to with TNum _, TNum _ => true | _, _ => vty_eqb from to end.

Section Typing.
(** The operators that are library functions at a type; the functions that can be called *)
Variable op_fun : optok -> vty -> option vty.
Variable fsig : text -> option (list vty * vty).
Fixpoint has_type (Γ : ctx) (e : expr) : option vty :=
  match e with
  | EBool _ => Some TBit
  | ENum v ty => match build_const (v, ty) with Ret (CInt t _) | Ret (CFloat t _) => Some (TNum t) | _ => None end
  | EVar x =>
      match Γ x with
      | Some t => Some t
      | None => if text_eqb x (lit "pi") || text_eqb x (lit "e") then Some (TNum F64) else None
      end
  | EUn OP_NOT a => match has_type Γ a with Some TBit => Some TBit | _ => None end
  | EUn OP_NEGATIVE a => match has_type Γ a with Some (TNum n) => if negatable n then Some (TNum n) else None | _ => None end
  | EBin op a b =>
      match has_type Γ a, has_type Γ b with
      | Some (TNum n), Some (TNum m) =>
          if arithmetic op then Some (TNum (wider n m)) else if comparison op then Some TBit else None
      | Some TBit, Some TBit => if logical op then Some TBit else None
      | _, _ => None
      end
  | ECond c a b =>
      match has_type Γ c, has_type Γ a, has_type Γ b with
      | Some TBit, Some s, Some t => if vty_eqb s t && negb (vty_eqb s TVoid) then Some s else None
      | _, _, _ => None
      end
  | ECall f es =>
      match all_some (map (has_type Γ) es) with
      | None => None
      | Some ts =>
          match find_text function_operators f with
          | Some (op, k) =>
              match widest ts with
              | Some n => if (length ts =? k) && match op_fun op (TNum n) with Some _ => true | None => false end then Some (TNum n) else None
              | None => None
              end
          | None =>
              match fsig f with
              | Some (ps, r) => if (length ts =? length ps) && forallb (fun p => pass (fst p) (snd p)) (combine ts ps) then Some r else None
              | None => None
              end
          end
      end
  | _ => None
  end.

(** *** Statements *)
(** An assignment has the type of the variable; x op= a needs that x op a has it. *)
Definition type_expr (Γ : ctx) (e : expr) : option ctx :=
  match e with
  | EBin OP_ASSIGN (EDef x) a =>
      match Γ x, has_type Γ a with
      | None, Some t => if vty_eqb t TVoid then None else Some (extend Γ x t)
      | _, _ => None
      end
  | EBin OP_ASSIGN (EVar x) a =>
      match Γ x, has_type Γ a with Some s, Some t => if vty_eqb s t then Some Γ else None | _, _ => None end
  | EBin op (EVar x) a =>
      match find (fun p => optok_eqb (fst p) op) compound with
      | Some (_, op) =>
          match Γ x, has_type Γ (EBin op (EVar x) a) with Some s, Some t => if vty_eqb s t then Some Γ else None | _, _ => None end
      | None => match has_type Γ e with Some _ => Some Γ | None => None end
      end
  | _ => match has_type Γ e with Some _ => Some Γ | None => None end
  end.
End Typing.

Section Statements.
(** The types of expressions; the effect of an expression statement; the type the function returns *)
Variable expr_type : ctx -> expr -> option vty.
Variable stmt_type : ctx -> expr -> option ctx.
Variable ret : vty.
Definition is_bool (Γ : ctx) (c : expr) : bool := match expr_type Γ c with Some TBit => true | _ => false end.
(** [loop]: the statement is inside a loop. The result: the names known after the statement *)
Fixpoint type_stmt (loop : bool) (Γ : ctx) (s : st) : option ctx :=
  let type_list := fix type_list (loop : bool) (Γ : ctx) (l : list st) : option ctx :=
    match l with [] => Some Γ | s :: l' => match type_stmt loop Γ s with Some Γ => type_list loop Γ l' | None => None end end in
  match s with
  | StReturn None => Some Γ
  | StReturn (Some e) => match expr_type Γ e with Some t => if pass t ret then Some Γ else None | None => None end
  | StExpr e => stmt_type Γ e
  | StBreak | StContinue => if loop then Some Γ else None
  | StWhile c b => if is_bool Γ c then type_list true Γ b else None
  | StIf c b es el =>
      if is_bool Γ c then
        match type_list loop Γ b with
        | None => None
        | Some Γ =>
            match
              (fix elifs Γ (es : list (expr * list st)) : option ctx :=
                 match es with
                 | [] => Some Γ
                 | (c, b) :: es' => if is_bool Γ c then match type_list loop Γ b with Some Γ => elifs Γ es' | None => None end else None
                 end) Γ es
            with
            | None => None
            | Some Γ => match el with Some b => type_list loop Γ b | None => Some Γ end
            end
        end
      else None
  end.
Definition type_list : bool -> ctx -> list st -> option ctx :=
  fix type_list (loop : bool) (Γ : ctx) (l : list st) : option ctx :=
    match l with [] => Some Γ | s :: l' => match type_stmt loop Γ s with Some Γ => type_list loop Γ l' | None => None end end.
End Statements.
(** The parameters *)
Fixpoint known (ps : list (vty * text)) : ctx :=
  match ps with [] => fun _ => None | (t, x) :: ps' => extend (known ps') x t end.
Definition well_typed (op_fun : optok -> vty -> option vty) (fsig : text -> option (list vty * vty)) (ret : vty)
  (ps : list (vty * text)) (body : list st) : Prop :=
  NoDup (map snd ps) /\ type_list (has_type op_fun fsig) (type_expr op_fun fsig) ret false (known ps) body <> None.

(** *** Programs without ?: *)
Fixpoint unconditional (e : expr) : bool :=
  match e with
  | EUn _ a => unconditional a
  | EBin _ a b => unconditional a && unconditional b
  | ECond _ _ _ => false
  | ECall _ es => forallb unconditional es
  | _ => true
  end.
Fixpoint unconditional_stmt (s : st) : bool :=
  match s with
  | StReturn (Some e) | StExpr e => unconditional e
  | StReturn None | StBreak | StContinue => true
  | StWhile c b => unconditional c && forallb unconditional_stmt b
  | StIf c b es el =>
      unconditional c && forallb unconditional_stmt b &&
      forallb (fun x => match x with (c, b) => unconditional c && forallb unconditional_stmt b end) es &&
      match el with Some b => forallb unconditional_stmt b | None => true end
  end.
(** *** The functions that can be used *)
(** Library functions for operators take and return numbers of one type. *)
Definition library (op_fun : optok -> vty -> option vty) : Prop :=
  forall op t r, op_fun op t = Some r -> r = t /\ exists n, t = TNum n.
(** No function has the name of an operator. *)
Definition no_operator_names (fsig : text -> option (list vty * vty)) : Prop := forall op, fsig (op_str op) = None.

(** *** Sources with several functions *)
(** A function can call itself, the functions before it, and registered ones. *)
Definition callable (us : list Validate_Model.udf) (reg : text -> option (list vty * vty)) (f : text) : option (list vty * vty) :=
  match find (fun u => text_eqb (Validate_Model.u_name u) f) us with
  | Some u => Some (map fst (Validate_Model.u_params u), Validate_Model.u_ret u)
  | None => reg f
  end.
(** Different names; every function is well typed. [done]: the functions before *)
Fixpoint well_typed_source (op_fun : optok -> vty -> option vty) (reg : text -> option (list vty * vty)) (done us : list Validate_Model.udf) : Prop :=
  match us with
  | [] => True
  | u :: us' =>
      well_typed op_fun (callable (done ++ [u]) reg) (Validate_Model.u_ret u) (Validate_Model.u_params u) (map denote_stmt (Validate_Model.u_body u)) /\
      ~ In (Validate_Model.u_name u) (map Validate_Model.u_name done) /\ well_typed_source op_fun reg (done ++ [u]) us'
  end.
(** Scalar functions of the kind considered here, without the name of an operator *)
Definition plain (u : Validate_Model.udf) : Prop :=
  Forall (fun p => fst p <> TVoid) (Validate_Model.u_params u) /\ forallb simple (map denote_stmt (Validate_Model.u_body u)) = true /\
  forall op, Validate_Model.u_name u <> op_str op.
