(** What the checks accept has a type, and the library functions it needs are declared. *)
From Coq Require Import Ascii String List Bool Arith ZArith Lia.
Import ListNotations.
From Verif Require Import Base Lexer_Model Lexer_Proofs Op_Model Op_Lemmas Number_Model Parser_Model Parser_Spec Parser_Print Ir_Model Codegen_Model Codegen_Spec Codegen_Scope Codegen_Lemmas Codegen_Expr Codegen_Shape Validate_Model Validate_Spec Validate_Codegen.

Section ExprInd.
Variable P : expr -> Prop.
Hypothesis Hbool : forall b, P (EBool b).
Hypothesis Hnum : forall v ty, P (ENum v ty).
Hypothesis Hstr : forall t, P (EStr t).
Hypothesis Hvar : forall x, P (EVar x).
Hypothesis Hcall : forall f es, Forall P es -> P (ECall f es).
Hypothesis Hmem : forall n ms, P (EMember n ms).
Hypothesis Hun : forall op a, P a -> P (EUn op a).
Hypothesis Hbin : forall op a b, P a -> P b -> P (EBin op a b).
Hypothesis Hcond : forall c a b, P c -> P a -> P b -> P (ECond c a b).
Hypothesis Hdef : forall x, P (EDef x).
Hypothesis Harr : forall es, P (EArray es).
Fixpoint expr_ind1 (e : expr) : P e :=
  match e with
  | EBool b => Hbool b
  | ENum v ty => Hnum v ty
  | EStr t => Hstr t
  | EVar x => Hvar x
  | ECall f es => Hcall f es ((fix go l : Forall P l := match l with [] => Forall_nil P | a :: l' => Forall_cons a (expr_ind1 a) (go l') end) es)
  | EMember n ms => Hmem n ms
  | EUn op a => Hun op a (expr_ind1 a)
  | EBin op a b => Hbin op a b (expr_ind1 a) (expr_ind1 b)
  | ECond c a b => Hcond c a b (expr_ind1 c) (expr_ind1 a) (expr_ind1 b)
  | EDef x => Hdef x
  | EArray es => Harr es
  end.
End ExprInd.

Section Checks.
Variable llvm19 : bool.
Variable op_fun : optok -> vty -> option vty.
Variable fsig : text -> option (list vty * vty).
Hypothesis lib : library op_fun.
Hypothesis names : no_operator_names fsig.
Notation validate := (validate op_fun fsig).
Notation has_type := (has_type op_fun fsig).
Notation type_in D := (type_of llvm19 (declared_fun op_fun D) fsig).

(** *** The checks depend only on the tree *)
Section Args.
Variable validateE : expr -> fctx -> outcome (tag * fctx).
Fixpoint argsE (l : list expr) (Γ : fctx) : outcome (list vty * fctx) :=
  match l with
  | [] => Ret ([], Γ)
  | o :: l' => do! (x, Γ) <- validateE o Γ; do! (ts, Γ) <- argsE l' Γ; Ret (fst x :: ts, Γ)
  end.
End Args.
Fixpoint validateE (e : expr) (Γ : fctx) : outcome (tag * fctx) :=
  match e with
  | EBool _ => Ret ((TBit, None), Γ)
  | ENum v ty => do! t <- number_type v ty; Ret ((TNum t, None), Γ)
  | EVar n => do! x <- var_tag n (fst Γ); Ret (x, Γ)
  | ECall n l =>
      match builtin_op n with
      | Some op =>
          do! (ts, Γ) <- argsE validateE l Γ;
          match compute_type None ts with
          | Some t => match op_fun op t with Some _ => Ret ((t, None), (fst Γ, (op, t) :: snd Γ)) | None => Err end
          | None => Err
          end
      | None =>
          if other_name n then Err
          else
            match fsig n with
            | None => Err
            | Some (ps, rt) => do! (ts, Γ) <- argsE validateE l Γ; if check_args ts ps then Ret ((rt, None), Γ) else Err
            end
      end
  | ECond c a b =>
      do! (c, Γ) <- validateE c Γ;
      do! (a, Γ) <- validateE a Γ;
      do! (b, Γ) <- validateE b Γ;
      do! t <- check_select (fst c) (fst a) (fst b); Ret ((t, None), Γ)
  | EBin op a b => do! (x, Γ) <- validateE a Γ; do! (y, Γ) <- validateE b Γ; check_binary op x y Γ
  | EUn op a => do! (x, Γ) <- validateE a Γ; do! x <- check_unary op x; Ret (x, Γ)
  | EDef n => if fresh n (fst Γ) then Ret ((TVoid, Some n), (add_local n TVoid (fst Γ), snd Γ)) else Err
  | _ => Err
  end.
Lemma obind_ret {A B} (a : A) (f : A -> outcome B) : (do! x <- Ret a; f x) = f a.
Proof. reflexivity. Qed.
Lemma args_denote l : Forall (fun o => forall Γ, validate o Γ = validateE (denote o) Γ) l -> forall Γ, validate_args validate l Γ = argsE validateE (map denote l) Γ.
Proof.
  induction 1 as [|o l H _ IH]; intros Γ; [reflexivity|]. cbn [validate_args map argsE]. rewrite H. destruct (validateE (denote o) Γ) as [[x Γ1]| | |]; cbn [obind]; auto. now rewrite IH.
Qed.
Lemma validate_denote : forall o Γ, validate o Γ = validateE (denote o) Γ.
Proof.
  apply (operand_ind2 (fun o => forall Γ, validate o Γ = validateE (denote o) Γ)); try reflexivity.
  - intros n l p H Γ. cbn [Validate_Model.validate denote validateE]. destruct (builtin_op n); [now rewrite (args_denote l H)|]. destruct (other_name n); [reflexivity|]. destruct (fsig n) as [[ps rt]|]; [|reflexivity]. now rewrite (args_denote l H).
  - intros c a b Hc Ha Hb Γ. cbn [Validate_Model.validate denote validateE]. rewrite Hc. destruct (validateE (denote c) Γ) as [[x Γ1]| | |]; cbn [obind]; auto. rewrite Ha. destruct (validateE (denote a) Γ1) as [[y Γ2]| | |]; cbn [obind]; auto. now rewrite Hb.
  - intros l r p Hl Hr Γ. cbn [Validate_Model.validate denote]. rewrite Hl. clear Hl. generalize (denote l) as e. revert Γ. induction Hr as [|[op y] r E _ IH]; intros Γ e; cbn [validate_rest map fold_left fst snd].
    + destruct (validateE e Γ) as [[x Γ1]| | |]; reflexivity.
    + rewrite <- IH. cbn [validateE]. destruct (validateE e Γ) as [[x Γ1]| | |]; cbn [obind]; auto. cbn [snd] in E. rewrite E. destruct (validateE (denote y) Γ1) as [[z Γ2]| | |]; cbn [obind]; auto.
  - intros op x p H Γ. cbn [Validate_Model.validate]. rewrite H. destruct op as [op|]; cbn [denote validateE]; [reflexivity|]. destruct (validateE (denote x) Γ) as [[y Γ1]| | |]; reflexivity.
Qed.

(** *** The types *)
Lemma pass_cast a b : pass a b = true -> cast_ok a b = true.
Proof. destruct a, b; auto; discriminate. Qed.
Lemma num_code_range n : (3 < num_code n)%Z.
Proof. destruct n; reflexivity. Qed.
Definition top (t : vty) (l : list vty) : vty := fold_left (fun a b => if (vty_code a <? vty_code b)%Z then b else a) l t.
Lemma compute_top l t : compute_type (Some t) l = Some (top t l).
Proof. revert t. induction l as [|u l IH]; intros t; [reflexivity|]. cbn [compute_type top fold_left]. destruct (vty_code t <? vty_code u)%Z; apply IH. Qed.
Lemma top_nums l n : top (TNum n) (map TNum l) = TNum (fold_left wider l n).
Proof.
  revert n. induction l as [|m l IH]; intros n; [reflexivity|]. cbn [map top fold_left]. rewrite wider_code. cbn [vty_code]. destruct (num_code n <? num_code m)%Z; apply IH.
Qed.
Lemma fold_wider l n k : wider n (fold_left wider l k) = fold_left wider l (wider n k).
Proof. revert n k. induction l as [|j l IH]; intros n k; [reflexivity|]. cbn [fold_left]. rewrite IH. now rewrite <- wider_assoc. Qed.
Lemma widest_fold l n : widest (map TNum (n :: l)) = Some (fold_left wider l n).
Proof.
  revert n. induction l as [|k l IH]; intros n; [reflexivity|]. change (widest (map TNum (n :: k :: l))) with (match widest (map TNum (k :: l)) with Some m => Some (wider n m) | None => None end). rewrite IH. cbn [fold_left]. now rewrite fold_wider.
Qed.
Lemma widest_nums ts n : widest ts = Some n -> exists m ns, ts = map TNum (m :: ns).
Proof.
  revert n. induction ts as [|t ts IH]; intros n H; [discriminate H|]. cbn [widest] in H. destruct t as [| |k]; try discriminate H. destruct ts as [|u ts]; [now exists k, []|].
  destruct (widest (u :: ts)) as [m|] eqn:E; [|discriminate H]. destruct (IH m eq_refl) as (a & l & ->). now exists k, (a :: l).
Qed.
Lemma compute_widest ts n : widest ts = Some n -> compute_type None ts = Some (TNum n).
Proof.
  intros H. destruct (widest_nums _ _ H) as (m & ns & ->). rewrite widest_fold in H. injection H as <-. cbn [map compute_type]. rewrite compute_top. now rewrite top_nums.
Qed.
Lemma declared_in D op t : In (op, t) D -> declared_fun op_fun D op t = op_fun op t.
Proof.
  intros H. unfold declared_fun. replace (existsb _ D) with true; [reflexivity|]. symmetry. apply existsb_exists. exists (op, t). split; [assumption|]. cbn [fst snd]. rewrite vty_eqb_refl, andb_true_r. now apply optok_eqb_eq.
Qed.
Lemma declared_library D : library (declared_fun op_fun D).
Proof. intros op t r H. unfold declared_fun in H. destruct (existsb _ D); [|discriminate H]. now apply lib in H. Qed.
Lemma result_type_num D op n r : comparison op = false -> result_type llvm19 (declared_fun op_fun D) op (TNum n) = Some r -> r = TNum n.
Proof.
  intros Hc H. unfold result_type in H. cbn [vty_eqb] in H. change (vty_eqb (TNum n) TVoid) with false in H. cbn iota in H. destruct (core llvm19 op (TNum n)); [rewrite Hc in H; congruence|]. now apply declared_library in H.
Qed.
Lemma function_comparison f op k : find_text function_operators f = Some (op, k) -> comparison op = false.
Proof.
  intros H. apply find_text_in in H. assert (forallb (fun p => negb (comparison (fst (snd p)))) function_operators = true) as A by reflexivity. rewrite forallb_forall in A. apply A in H. cbn [fst snd] in H. now destruct (comparison op).
Qed.
Lemma function_positive f op k : find_text function_operators f = Some (op, k) -> 0 < k.
Proof.
  intros H. apply find_text_in in H. assert (forallb (fun p => 0 <? snd (snd p)) function_operators = true) as A by reflexivity. rewrite forallb_forall in A. apply A in H. now apply Nat.ltb_lt in H.
Qed.
Lemma common_nums ts n : widest ts = Some n -> common ts = Some (TNum n).
Proof.
  intros H. destruct (widest_nums _ _ H) as (m & ns & ->). destruct ns as [|k [|j ns]].
  - cbn in H |- *. congruence.
  - cbn [map common]. destruct (vty_eqb (TNum m) (TNum k)) eqn:E; [|cbn [map] in H; now rewrite H]. apply vty_eqb_eq in E. injection E as ->. cbn in H. injection H as <-. now destruct k.
  - cbn [map common] in *. now rewrite H.
Qed.
Lemma convertible_nums ts n : widest ts = Some n -> forallb (fun s => convertible s (TNum n)) ts = true.
Proof.
  intros H. destruct (widest_nums _ _ H) as (m & ns & ->). apply forallb_forall. intros x Hx. apply in_map_iff in Hx as (k & <- & _). unfold convertible. now rewrite orb_true_r.
Qed.
(** An operator written like a function *)
Lemma function_type D op f k ts n r : find_text function_operators f = Some (op, k) -> widest ts = Some n -> op_fun op (TNum n) = Some r -> In (op, TNum n) D ->
  op_type llvm19 (declared_fun op_fun D) op ts = Some (TNum n).
Proof.
  intros F W O I. unfold op_type. rewrite (common_nums _ _ W), (convertible_nums _ _ W). unfold result_type. change (vty_eqb (TNum n) TVoid) with false. cbn iota. destruct (core llvm19 op (TNum n)).
  - now rewrite (function_comparison _ _ _ F).
  - rewrite (declared_in _ _ _ I), O. apply lib in O as [-> _]. reflexivity.
Qed.
Lemma function_type_any D op f k ts n : find_text function_operators f = Some (op, k) -> widest ts = Some n ->
  op_type llvm19 (declared_fun op_fun D) op ts = Some (TNum n) \/ op_type llvm19 (declared_fun op_fun D) op ts = None.
Proof.
  intros F W. unfold op_type. rewrite (common_nums _ _ W), (convertible_nums _ _ W). destruct (result_type llvm19 (declared_fun op_fun D) op (TNum n)) as [r|] eqn:E; [|auto]. left. f_equal. eapply result_type_num; [|exact E]. eapply function_comparison; eauto.
Qed.
Lemma function_no_type D op ts n : compute_type None ts = Some (TNum n) -> widest ts = None -> op_type llvm19 (declared_fun op_fun D) op ts = None.
Proof.
  intros C W. unfold op_type. destruct ts as [|t [|u [|v ts]]]; [discriminate C| | |].
  - cbn in C. injection C as ->. discriminate W.
  - unfold common. rewrite W. destruct (vty_eqb t u) eqn:E; [|reflexivity]. apply vty_eqb_eq in E. subst u. cbn [compute_type] in C. rewrite Z.ltb_irrefl in C. injection C as ->. discriminate W.
  - unfold common. now rewrite W.
Qed.
Lemma typed_const v t c : build_typed v t = Ret c -> match c with CInt t _ => t | CFloat t _ => t end = t.
Proof. unfold build_typed. destruct (ty_integer t); [|now injection 1 as <-]. destruct (to_u64 v); try discriminate. cbn [obind]. now injection 1 as <-. Qed.
Lemma const_type v ty c : build_const (v, ty) = Ret c -> number_type v ty = Ret (match c with CInt t _ => t | CFloat t _ => t end).
Proof.
  unfold build_const, number_type. cbn [snd fst]. destruct ty as [t|]; [intros H; now rewrite (typed_const _ _ _ H)|].
  unfold build_untyped. destruct (to_i64 v) as [i| | |]; try discriminate. cbn [obind]. destruct (dbl_eqb (of_i64 i) v); [|now injection 1 as <-]. intros H. now rewrite (typed_const _ _ _ H).
Qed.
Lemma check_args_pass ts ps : (length ts =? length ps) && forallb (fun p => pass (fst p) (snd p)) (combine ts ps) = true -> check_args ts ps = true.
Proof.
  revert ps. induction ts as [|t ts IH]; intros [|p ps]; cbn [length combine forallb check_args fst snd Nat.eqb]; try discriminate; auto. intros H. apply andb_true_iff in H as [H1 H]. apply andb_true_iff in H as [H2 H3].
  rewrite (pass_cast _ _ H2). apply IH. now rewrite H1, H3.
Qed.
Lemma pass_conv {l : list (vty * vty)} : forallb (fun p => pass (fst p) (snd p)) l = forallb (fun p => convertible (fst p) (snd p)) l.
Proof. induction l as [|p l IH]; [reflexivity|]. cbn [forallb]. now rewrite IH, pass_convertible. Qed.

(** *** Expressions *)
Ltac rew H := match type of H with
  | ?f ?c = _ => match goal with |- context [f ?c'] => unify c c'; change (f c') with (f c) end
  end; rewrite H.
Definition refused {A} (o : outcome A) : Prop := match o with Ret _ => False | _ => True end.
Lemma refused_bind {A B} (o : outcome A) (f : A -> outcome B) : refused o -> refused (do! x <- o; f x).
Proof. now destruct o. Qed.
Lemma kept e : pure e = true -> forall Γ x Γ', validateE e Γ = Ret (x, Γ') -> fst Γ' = fst Γ.
Proof.
  induction e as [b|v ty|t|x|f es IH|n ms|op a IH|op a b IHa IHb|c a b IHc IHa IHb|x|es] using expr_ind1; cbn [pure]; intros Hp Γ y Γ' H; try discriminate Hp; cbn [validateE] in H.
  - injection H as <- <-. reflexivity.
  - destruct (number_type v ty); try discriminate H. injection H as <- <-. reflexivity.
  - destruct (var_tag x (fst Γ)); try discriminate H. injection H as <- <-. reflexivity.
  - apply andb_true_iff in Hp as [Hp _]. assert (forall Γ ts Γ', argsE validateE es Γ = Ret (ts, Γ') -> fst Γ' = fst Γ) as A.
    { clear H. induction IH as [|e es He _ IHes]; cbn [argsE forallb] in *; intros G ts G' H; [injection H as <- <-; reflexivity|]. apply andb_true_iff in Hp as [H1 H2].
      destruct (validateE e G) as [[z G1]| | |] eqn:E; try discriminate H. cbn [obind] in H. destruct (argsE validateE es G1) as [[us G2]| | |] eqn:E2; try discriminate H. injection H as <- <-. rewrite (IHes H2 _ _ _ E2). eauto. }
    destruct (builtin_op f) as [op|].
    + destruct (argsE validateE es Γ) as [[ts G]| | |] eqn:E; try discriminate H. cbn [obind] in H. destruct (compute_type None ts) as [t|]; try discriminate H. destruct (op_fun op t); try discriminate H. injection H as <- <-. cbn [fst]. eauto.
    + destruct (other_name f); [discriminate H|]. destruct (fsig f) as [[ps rt]|]; [|discriminate H]. destruct (argsE validateE es Γ) as [[ts G]| | |] eqn:E; try discriminate H. cbn [obind] in H. destruct (check_args ts ps); [|discriminate H]. injection H as <- <-. eauto.
  - apply andb_true_iff in Hp as [_ Hp]. destruct (validateE a Γ) as [[z G1]| | |] eqn:E; try discriminate H. cbn [obind] in H. destruct (check_unary op z); try discriminate H. injection H as <- <-. eauto.
  - apply andb_true_iff in Hp as [Hp Hb]. apply andb_true_iff in Hp as [Ho Ha]. destruct (validateE a Γ) as [[z G1]| | |] eqn:E1; try discriminate H. cbn [obind] in H. destruct (validateE b G1) as [[u G2]| | |] eqn:E2; try discriminate H. cbn [obind] in H.
    rewrite <- (IHa Ha _ _ _ E1), <- (IHb Hb _ _ _ E2). unfold check_binary in H. destruct (unify op z (fst u)) as [[p q]| | |]; try discriminate H. cbn [obind] in H.
    destruct op; try discriminate Ho; try discriminate H; match type of H with (if ?b then _ else _) = _ => destruct b; [|discriminate H] end; injection H as <- <-; reflexivity.
  - apply andb_true_iff in Hp as [Hp Hb]. apply andb_true_iff in Hp as [Hc Ha]. destruct (validateE c Γ) as [[z G1]| | |] eqn:E1; try discriminate H. cbn [obind] in H. destruct (validateE a G1) as [[u G2]| | |] eqn:E2; try discriminate H. cbn [obind] in H.
    destruct (validateE b G2) as [[w G3]| | |] eqn:E3; try discriminate H. cbn [obind] in H. destruct (check_select (fst z) (fst u) (fst w)); try discriminate H. injection H as <- <-. rewrite (IHb Hb _ _ _ E3), (IHa Ha _ _ _ E2). eauto.
Qed.

Definition agree (Γ : ctx) (G : vars) (e : expr) : Prop := forall x, In x (reads e) -> find_text G x = Γ x.
(** What holds of an expression of type T *)
Definition checked (Γ : ctx) (e : expr) (G : vars) (D0 : calls) (T : option vty) (u : Prop) : Prop :=
  match T with
  | Some t => (exists n D1, validateE e (G, D0) = Ret ((t, n), (G, D1 ++ D0)) /\ forall D, incl D1 D -> type_in D Γ e = Some t) /\
      (forall D, type_in D Γ e = Some t \/ type_in D Γ e = None)
  | None => u -> refused (validateE e (G, D0)) \/ forall D, type_in D Γ e = None
  end.
(** Arguments *)
Lemma args_checked Γ es : Forall (fun e => pure e = true -> forall G D0, agree Γ G e -> checked Γ e G D0 (has_type Γ e) (unconditional e = true)) es ->
  forallb pure es = true -> forall G D0, (forall e, In e es -> agree Γ G e) ->
  match all_some (map (has_type Γ) es) with
  | Some ts => (exists D1, argsE validateE es (G, D0) = Ret (ts, (G, D1 ++ D0)) /\ forall D, incl D1 D -> all_some (map (type_in D Γ) es) = Some ts) /\
      (forall D, all_some (map (type_in D Γ) es) = Some ts \/ all_some (map (type_in D Γ) es) = None)
  | None => forallb unconditional es = true -> refused (argsE validateE es (G, D0)) \/ forall D, all_some (map (type_in D Γ) es) = None
  end.
Proof.
  induction 1 as [|e es He _ IH]; intros Hp G D0 A; cbn [map all_some argsE].
  - split; [exists []; auto|auto].
  - cbn [forallb] in Hp. apply andb_true_iff in Hp as [H1 H2]. specialize (He H1 G D0 (A e (or_introl eq_refl))). destruct (has_type Γ e) as [t|].
    + destruct He as [(n & D1 & E1 & T1) U1]. rew E1. cbn [obind fst]. specialize (IH H2 G (D1 ++ D0) (fun a Ha => A a (or_intror Ha))). destruct (all_some (map (has_type Γ) es)) as [ts|].
      * destruct IH as [(D2 & E2 & T2) U2]. rew E2. cbn [obind]. split.
        { exists (D2 ++ D1). rewrite <- app_assoc. split; [reflexivity|]. intros D I. rewrite T1, T2; [reflexivity|..]; intros x Hx; apply I; apply in_or_app; auto. }
        { intros D. destruct (U1 D) as [-> | ->]; [|auto]. destruct (U2 D) as [-> | ->]; auto. }
      * intros Hu. cbn [forallb] in Hu. apply andb_true_iff in Hu as [Hu1 Hu2]. destruct (IH Hu2) as [R|R]; [left; now apply refused_bind|right]. intros D. rewrite R. now destruct (type_in D Γ e).
    + intros Hu. cbn [forallb] in Hu. apply andb_true_iff in Hu as [Hu1 Hu2]. destruct (He Hu1) as [R|R]; [left; now apply refused_bind|right]. intros D. now rewrite R.
Qed.

Lemma bit_op D op t r : core llvm19 op TBit = true -> comparison op = false -> op_type llvm19 (declared_fun op_fun D) op [TBit] = Some t -> t = TBit -> r = t -> True.
Proof. auto. Qed.
Lemma arithmetic_ops op : arithmetic op = true -> In op [OP_PLUS; OP_MINUS; OP_MULTIPLY; OP_DIVIDE; OP_MOD; OP_POW].
Proof. unfold arithmetic. intros H. apply existsb_exists in H as (o & I & E). apply optok_eqb_eq in E. now subst. Qed.
(** Binary operators: the checks against the types *)
Lemma binary_checked op s t l r Γ : existsb (optok_eqb op) infix_ops = true -> fst l = s -> fst r = t ->
  match (match s, t with
         | TNum n, TNum m => if arithmetic op then Some (TNum (wider n m)) else if comparison op then Some TBit else None
         | TBit, TBit => if logical op then Some TBit else None
         | _, _ => None end) with
  | Some u => (exists n, check_binary op l r Γ = Ret ((u, n), Γ)) /\ forall D, op_type llvm19 (declared_fun op_fun D) op [s; t] = Some u
  | None => refused (check_binary op l r Γ) \/ forall D, op_type llvm19 (declared_fun op_fun D) op [s; t] = None
  end.
Proof.
  intros Ho Hl Hr. destruct l as [l ln], r as [r rn]. cbn [fst snd] in *. subst l r.
  assert (forall t, op_type llvm19 (declared_fun op_fun []) op [TVoid; t] = None /\ forall D, op_type llvm19 (declared_fun op_fun D) op [TVoid; t] = None) as V1.
  { intros []; split; intros; reflexivity. }
  assert (forall t D, op_type llvm19 (declared_fun op_fun D) op [t; TVoid] = None) as V2. { intros []; intros; reflexivity. }
  destruct s as [| |n], t as [| |m]; cbn [fst snd].
  1-3: right; intros D; apply V1. 1, 4: right; intros D; apply V2.
  - unfold check_binary, unify. cbn [fst snd]. rewrite vty_eqb_refl. cbn [obind].
    destruct op; try discriminate Ho; cbn [logical existsb optok_eqb]; try (left; exact Logic.I); (split; [eexists; reflexivity|intros D; reflexivity]).
  - left. unfold check_binary, unify. cbn. exact Logic.I.
  - left. unfold check_binary, unify. cbn. exact Logic.I.
  - assert (exists q, unify op (TNum n, ln) (TNum m) = Ret (TNum (wider n m), TNum q)) as (q & U).
    { unfold unify. cbn [fst snd]. destruct (vty_eqb (TNum n) (TNum m)) eqn:E.
      - apply vty_eqb_eq in E. injection E as ->. exists m. f_equal. f_equal. now destruct m.
      - exists m. change (vty_eqb (TNum n) TVoid) with false. cbn [andb negb cast_ok can_cast number]. rewrite wider_code. cbn [vty_code]. destruct (num_code n <? num_code m)%Z; reflexivity. }
    unfold check_binary. cbn [fst snd]. rewrite U. cbn [obind number andb].
    assert (forall D, op_type llvm19 (declared_fun op_fun D) op [TNum n; TNum m] = result_type llvm19 (declared_fun op_fun D) op (TNum (wider n m))) as O.
    { intros D. unfold op_type. assert (widest [TNum n; TNum m] = Some (wider n m)) as W by reflexivity. now rewrite (common_nums _ _ W), (convertible_nums _ _ W). }
    destruct op; try discriminate Ho; cbn [arithmetic comparison existsb optok_eqb orb]; try (left; exact Logic.I); (split; [eexists; reflexivity|intros D; rewrite O; reflexivity]).
Qed.

Lemma expr_checked Γ e : pure e = true -> forall G D0, agree Γ G e -> checked Γ e G D0 (has_type Γ e) (unconditional e = true).
Proof.
  induction e as [b|v ty|t|x|f es IH|n ms|op a IH|op a b IHa IHb|c a b IHc IHa IHb|x|es] using expr_ind1; intros Hp G D0 A; cbn [pure] in Hp; try discriminate Hp.
  - split; [exists None, []; auto|auto].
  - cbn [Validate_Spec.has_type checked type_of validateE]. destruct (build_const (v, ty)) as [c| | |] eqn:E; [|intros _; right; intros D; cbn [type_of]; now rewrite E..].
    assert (forall D, type_in D Γ (ENum v ty) = Some (TNum (match c with CInt t _ => t | CFloat t _ => t end))) as T by (intros D; cbn [type_of]; rewrite E; now destruct c).
    apply const_type in E. destruct c; (split; [exists None, []; cbn [validateE]; rewrite E; auto|auto]).
  - specialize (A x (or_introl eq_refl)). cbn [Validate_Spec.has_type].
    assert (forall D, type_in D Γ (EVar x) = match Γ x with Some t => Some t | None => if text_eqb x (lit "pi") || text_eqb x (lit "e") then Some (TNum F64) else None end) as T by reflexivity.
    assert (validateE (EVar x) (G, D0) = do! y <- match Γ x with Some t => Ret (t, Some x) | None => if text_eqb x (lit "pi") || text_eqb x (lit "e") then Ret (TNum F64, None) else Err end; Ret (y, (G, D0))) as V.
    { cbn [validateE fst]. unfold var_tag. now rewrite A. }
    unfold checked. destruct (Γ x) as [t|].
    + split; [exists (Some x), []; auto|auto].
    + destruct (text_eqb x (lit "pi") || text_eqb x (lit "e")); [split; [exists None, []; auto|auto]|intros _; right; exact T].
  - apply andb_true_iff in Hp as [Hp Hk]. assert (forall e, In e es -> agree Γ G e) as Ae. { intros e He x Hx. apply A. cbn [reads]. apply in_flat_map. eauto. }
    pose proof (args_checked Γ es IH Hp G D0 Ae) as H. cbn [Validate_Spec.has_type].
    eassert (validateE (ECall f es) (G, D0) = _) as V by (cbn [validateE]; rewrite builtin_op_table; reflexivity).
    assert (forall D, type_in D Γ (ECall f es) = match all_some (map (type_in D Γ) es) with
      | None => None
      | Some ts =>
          match find_text function_operators f with
          | Some (op, _) => op_type llvm19 (declared_fun op_fun D) op ts
          | None =>
              match fsig f with
              | Some (ps, r) => if (length ts =? length ps) && forallb (fun p => convertible (fst p) (snd p)) (combine ts ps) then Some r else None
              | None => None
              end
          end
      end) as T by reflexivity.
    unfold checked. destruct (all_some (map (has_type Γ) es)) as [ts|] eqn:ET.
    + assert (length ts = length es) as Len. { clear -ET. revert ts ET. induction es as [|e es IH]; cbn [map all_some]; intros ts ET; [now injection ET as <-|]. destruct (has_type Γ e), (all_some (map (has_type Γ) es)) as [us|]; try discriminate ET. injection ET as <-. cbn [length]. now rewrite (IH us eq_refl). }
      destruct H as [(D1 & E1 & T1) U1]. destruct (find_text function_operators f) as [[op k]|] eqn:F; cbn [option_map fst] in V.
      * rewrite Len, Hk. cbn [andb]. rewrite V. rew E1. cbn [obind snd fst]. destruct (widest ts) as [n|] eqn:W.
        { rewrite (compute_widest _ _ W). destruct (op_fun op (TNum n)) as [r|] eqn:O.
          - split.
            + exists None, ((op, TNum n) :: D1). split; [reflexivity|]. intros D I. rewrite T. rewrite T1 by (intros y Hy; apply I; now right). eapply function_type; eauto. apply I. now left.
            + intros D. rewrite T. destruct (U1 D) as [-> | ->]; [|auto]. eapply function_type_any; eauto.
          - intros _. left. exact Logic.I. }
        { intros _. destruct (compute_type None ts) as [t|] eqn:C; [|left; exact Logic.I]. destruct (op_fun op t) as [r|] eqn:O; [|left; exact Logic.I]. right. intros D. rewrite T. destruct (U1 D) as [-> | ->]; [|reflexivity].
          apply lib in O as [_ (n & ->)]. eapply function_no_type; eauto. }
      * destruct (other_name f) eqn:Eo.
        { assert (fsig f = None) as ->; [|intros _; left; rewrite V; exact Logic.I]. unfold other_name in Eo. apply existsb_exists in Eo as (op & _ & Eo). apply text_eqb_eq in Eo. rewrite <- Eo. apply names. }
        destruct (fsig f) as [[ps r]|]; [|intros _; left; rewrite V; exact Logic.I]. rewrite V. rew E1. cbn [obind]. destruct ((length ts =? length ps) && forallb (fun p => pass (fst p) (snd p)) (combine ts ps)) eqn:P.
        { rewrite (check_args_pass _ _ P). rewrite pass_conv in P. split.
          - exists None, D1. split; [reflexivity|]. intros D I. rewrite T, (T1 D I), P. reflexivity.
          - intros D. rewrite T. destruct (U1 D) as [-> | ->]; [rewrite P|]; auto. }
        { intros _. right. intros D. rewrite T. rewrite pass_conv in P. destruct (U1 D) as [-> | ->]; [rewrite P|]; auto. }
    + intros Hu. cbn [unconditional] in Hu. destruct (H Hu) as [R|R].
      * left. rewrite V. destruct (find_text function_operators f) as [[op k]|]; cbn [option_map]; [now apply refused_bind|]. destruct (other_name f); [exact Logic.I|]. destruct (fsig f) as [[ps r]|]; [now apply refused_bind|exact Logic.I].
      * right. intros D. now rewrite T, R.
  - apply andb_true_iff in Hp as [Ho Hp]. specialize (IH Hp G D0 A). unfold checked in *.
    eassert (validateE (EUn op a) (G, D0) = _) as V by (cbn [validateE]; reflexivity).
    assert (forall D, type_in D Γ (EUn op a) = match type_in D Γ a with Some t => op_type llvm19 (declared_fun op_fun D) op [t] | None => None end) as T0 by reflexivity.
    destruct (has_type Γ a) as [t|] eqn:Et.
    + destruct IH as [(n & D1 & E & T) U]. rewrite V. rew E. cbn [obind]. destruct op; try discriminate Ho; cbn [Validate_Spec.has_type]; rewrite Et.
      * destruct t as [| |m]; cbn [check_unary fst snd number is_signed andb obind].
        1, 2: intros _; left; exact Logic.I. destruct (negatable m) eqn:N.
        { assert (is_signed (TNum m) = true) as Es; [now destruct m|]. unfold is_signed in Es. rewrite Es. cbn [obind]. split; [exists n, D1; split; [reflexivity|]; intros D I; rewrite T0, (T D I); now destruct m|]. intros D. rewrite T0. destruct (U D) as [-> | ->]; [left; now destruct m|auto]. }
        { assert (is_signed (TNum m) = false) as Es; [now destruct m|]. unfold is_signed in Es. rewrite Es. intros _. left. exact Logic.I. }
      * destruct t as [| |m]; cbn [check_unary fst snd obind].
        { intros _. left. exact Logic.I. }
        { split; [exists n, D1; split; [reflexivity|]; intros D I; now rewrite T0, (T D I)|]. intros D. rewrite T0. destruct (U D) as [-> | ->]; auto. }
        { intros _. left. exact Logic.I. }
    + assert (has_type Γ (EUn op a) = None) as -> by (destruct op; try discriminate Ho; cbn [Validate_Spec.has_type]; now rewrite Et). intros Hu. destruct (IH Hu) as [R|R]; [left; rewrite V; now apply refused_bind|right]. intros D. now rewrite T0, R.
  - apply andb_true_iff in Hp as [Hp Hb]. apply andb_true_iff in Hp as [Ho Ha]. assert (agree Γ G a) as Aa by (intros x Hx; apply A; cbn [reads]; apply in_or_app; auto). assert (agree Γ G b) as Ab by (intros x Hx; apply A; cbn [reads]; apply in_or_app; auto).
    specialize (IHa Ha G D0 Aa). cbn [Validate_Spec.has_type]. destruct (has_type Γ a) as [s|].
    2:{ cbn [checked] in *. intros Hu. cbn [unconditional] in Hu. apply andb_true_iff in Hu as [Hu _]. destruct (IHa Hu) as [R|R]; [left; cbn [validateE]; now apply refused_bind|right]. intros D. cbn [type_of]. now rewrite R. }
    destruct IHa as [(n & D1 & E1 & T1) U1]. specialize (IHb Hb G (D1 ++ D0) Ab). destruct (has_type Γ b) as [t|].
    2:{ match goal with |- checked _ _ _ _ ?x _ => replace x with (@None vty) by now destruct s end. cbn [checked] in *.
        intros Hu. cbn [unconditional] in Hu. apply andb_true_iff in Hu as [_ Hu]. destruct (IHb Hu) as [R|R].
        - left. cbn [validateE]. rew E1. cbn [obind]. now apply refused_bind.
        - right. intros D. cbn [type_of]. rewrite R. now destruct (type_in D Γ a). }
    destruct IHb as [(m & D2 & E2 & T2) U2]. pose proof (binary_checked op s t (s, n) (t, m) (G, D2 ++ D1 ++ D0) Ho eq_refl eq_refl) as H.
    match type of H with match ?x with _ => _ end => change (checked Γ (EBin op a b) G D0 x (unconditional (EBin op a b) = true)); destruct x as [u|] end.
    + destruct H as [(k & K) O]. split.
      * exists k, (D2 ++ D1). cbn [validateE type_of]. rew E1. cbn [obind]. rew E2. cbn [obind]. rewrite <- app_assoc. split; [exact K|]. intros D I. rewrite T1, T2; [apply O|..]; intros x Hx; apply I; apply in_or_app; auto.
      * intros D. cbn [type_of]. destruct (U1 D) as [-> | ->]; [|auto]. destruct (U2 D) as [-> | ->]; [|auto]. left. apply O.
    + intros _. cbn [validateE type_of]. rew E1. cbn [obind]. rew E2. cbn [obind]. destruct H as [H|H]; [auto|right]. intros D. destruct (U1 D) as [-> | ->]; [|auto]. destruct (U2 D) as [-> | ->]; auto.
  - apply andb_true_iff in Hp as [Hp Hb]. apply andb_true_iff in Hp as [Hc Ha]. assert (agree Γ G a /\ agree Γ G b /\ agree Γ G c) as (Aa & Ab & Ac) by (repeat split; intros x Hx; apply A; cbn [reads]; rewrite !in_app_iff; auto).
    cbn [Validate_Spec.has_type]. specialize (IHc Hc G D0 Ac). destruct (has_type Γ c) as [[| |]|]; try (intros Hu; discriminate Hu). destruct IHc as [(n & D1 & E1 & T1) U1]. specialize (IHa Ha G (D1 ++ D0) Aa).
    destruct (has_type Γ a) as [s|]; try (intros Hu; discriminate Hu). destruct IHa as [(m & D2 & E2 & T2) U2]. specialize (IHb Hb G (D2 ++ D1 ++ D0) Ab). destruct (has_type Γ b) as [t|]; try (intros Hu; discriminate Hu). destruct IHb as [(k & D3 & E3 & T3) U3].
    destruct (vty_eqb s t) eqn:E; [|intros Hu; discriminate Hu]. apply vty_eqb_eq in E. subst t. destruct (vty_eqb s TVoid) eqn:Ev; [intros Hu; discriminate Hu|]. cbn [negb andb].
    assert (forall D, op_type llvm19 (declared_fun op_fun D) OP_CONDITIONAL [s; s] = Some s) as O.
    { intros D. unfold op_type, common. rewrite vty_eqb_refl. unfold convertible. cbn [forallb]. rewrite vty_eqb_refl. cbn [orb andb]. unfold result_type. rewrite Ev. reflexivity. }
    split.
    + exists None, (D3 ++ D2 ++ D1). cbn [validateE type_of]. rew E1. cbn [obind]. rew E2. cbn [obind]. rew E3. cbn [obind fst]. unfold check_select. rewrite vty_eqb_refl.
      assert (cast_ok s s = true) as -> by now destruct s. cbn [obind]. rewrite <- !app_assoc. split; [reflexivity|]. intros D I. rewrite T1, T2, T3; [rewrite vty_eqb_refl; apply O|..]; intros x Hx; apply I; rewrite !in_app_iff; auto.
    + intros D. cbn [type_of]. destruct (U1 D) as [-> | ->]; [|auto]. destruct (U2 D) as [-> | ->]; [|auto]. destruct (U3 D) as [-> | ->]; [|auto]. left. rewrite vty_eqb_refl. apply O.
Qed.

(** *** Expression statements *)
Notation gexpr D := (gexpr llvm19 (declared_fun op_fun D) fsig).
Notation type_expr := (type_expr op_fun fsig).
Definition same (G : vars) (Γ : ctx) : Prop := forall x, find_text G x = Γ x.
Definition novoids (Γ : ctx) : Prop := forall x, Γ x <> Some TVoid.
Definition passed (T : option ctx) (o : outcome fctx) (D0 : calls) (g : calls -> option ctx) (u : Prop) : Prop :=
  match T with
  | Some Γ' => (exists G' D1, o = Ret (G', D1 ++ D0) /\ same G' Γ' /\ novoids Γ' /\ forall D, incl D1 D -> g D = Some Γ') /\
      forall D, g D = Some Γ' \/ g D = None
  | None => u -> refused o \/ forall D, g D = None
  end.
Lemma same_agree G Γ e : same G Γ -> agree Γ G e.
Proof. intros S x _. apply S. Qed.
Lemma pure_passed Γ G D0 e : pure e = true -> same G Γ -> novoids Γ ->
  passed (match has_type Γ e with Some _ => Some Γ | None => None end) (do! (_, Γ) <- validateE e (G, D0); Ret Γ) D0
    (fun D => match type_in D Γ e with Some _ => Some Γ | None => None end) (unconditional e = true).
Proof.
  intros Hp S N. pose proof (expr_checked Γ e Hp G D0 (same_agree _ _ e S)) as H. unfold checked in H. unfold passed. destruct (has_type Γ e) as [t|].
  - destruct H as [(n & D1 & E & T) U]. split.
    + exists G, D1. rew E. cbn [obind]. repeat split; auto. intros D I. now rewrite (T D I).
    + intros D. destruct (U D) as [-> | ->]; auto.
  - intros Hu. destruct (H Hu) as [R|R]; [left; now apply refused_bind|right]. intros D. now rewrite R.
Qed.
Lemma find_cons_text (G : vars) x t y : find_text ((x, t) :: G) y = if text_eqb x y then Some t else find_text G y.
Proof. reflexivity. Qed.
Lemma decl_passed Γ G D0 x a : pure a = true -> ~ In x (reads a) -> same G Γ -> novoids Γ ->
  passed (type_expr Γ (EBin OP_ASSIGN (EDef x) a)) (do! (_, Γ) <- validateE (EBin OP_ASSIGN (EDef x) a) (G, D0); Ret Γ) D0
    (fun D => gexpr D Γ (EBin OP_ASSIGN (EDef x) a)) (unconditional a = true).
Proof.
  intros Hp Hx S N. cbn [Validate_Spec.type_expr Validate_Codegen.gexpr validateE fst snd]. unfold fresh, add_local. rewrite (S x). destruct (Γ x) as [s|] eqn:Ex; [intros _; left; exact Logic.I|]. cbn [obind].
  assert (agree Γ ((x, TVoid) :: G) a) as A. { intros y Hy. rewrite find_cons_text. destruct (text_eqb x y) eqn:E; [apply text_eqb_eq in E; subst; contradiction|apply S]. }
  pose proof (expr_checked Γ a Hp ((x, TVoid) :: G) D0 A) as H. unfold checked in H. destruct (has_type Γ a) as [t|].
  - destruct H as [(n & D1 & E & T) U]. rew E. cbn [obind]. unfold check_binary, unify. cbn [fst snd]. destruct (vty_eqb t TVoid) eqn:Et.
    + intros _. right. intros D. destruct (U D) as [-> | ->]; [now rewrite Et|reflexivity].
    + assert (vty_eqb TVoid t = false) as ->. { apply vty_eqb_neq. intros <-. now rewrite vty_eqb_refl in Et. } rewrite vty_eqb_refl. cbn [andb optok_eqb obind fst snd].
      replace (optok_eqb OP_ASSIGN OP_ASSIGN) with true by reflexivity. cbn [obind fst snd]. unfold add_local. rewrite find_cons_text, text_eqb_refl. cbn [retype]. rewrite text_eqb_refl. split.
      * exists ((x, t) :: G), D1. split; [reflexivity|]. split; [|split].
        { intros y. rewrite find_cons_text. unfold extend. rewrite (text_eqb_sym x y). destruct (text_eqb y x); auto. }
        { intros y. unfold extend. destruct (text_eqb y x); [|apply N]. intros Q. injection Q as ->. discriminate Et. }
        { intros D I. rewrite (T D I), Et. reflexivity. }
      * intros D. destruct (U D) as [-> | ->]; [rewrite Et|]; auto.
  - intros Hu. destruct (H Hu) as [R|R]; [left|right].
    + apply refused_bind. now apply refused_bind.
    + intros D. now rewrite R.
Qed.
Lemma var_some Γ G D0 x s : same G Γ -> Γ x = Some s -> validateE (EVar x) (G, D0) = Ret ((s, Some x), (G, D0)).
Proof. intros S E. cbn [validateE fst]. unfold var_tag. now rewrite (S x), E. Qed.
Lemma assign_passed Γ G D0 x a : pure a = true -> same G Γ -> novoids Γ ->
  passed (type_expr Γ (EBin OP_ASSIGN (EVar x) a)) (do! (_, Γ) <- validateE (EBin OP_ASSIGN (EVar x) a) (G, D0); Ret Γ) D0
    (fun D => gexpr D Γ (EBin OP_ASSIGN (EVar x) a)) (unconditional a = true).
Proof.
  intros Hp S N. cbn [Validate_Spec.type_expr Validate_Codegen.gexpr]. cbn [validateE]. fold (validateE (EVar x) (G, D0)). destruct (Γ x) as [s|] eqn:Ex; [|intros _; right; reflexivity].
  change (do! x0 <- var_tag x (fst (G, D0)); Ret (x0, (G, D0))) with (validateE (EVar x) (G, D0)). rewrite (var_some _ _ _ _ _ S Ex). cbn [obind].
  pose proof (expr_checked Γ a Hp G D0 (same_agree _ _ a S)) as H. unfold checked in H. destruct (has_type Γ a) as [t|].
  - destruct H as [(n & D1 & E & T) U]. rew E. cbn [obind]. destruct (vty_eqb s t) eqn:Et.
    + apply vty_eqb_eq in Et. subst t. unfold check_binary, unify. cbn [fst snd]. rewrite vty_eqb_refl. cbn [obind fst snd].
      assert (add_local x s G = G) as ->. { unfold add_local. rewrite (S x), Ex. destruct s; auto. now destruct (N x). } split.
      * exists G, D1. repeat split; auto. intros D I. rewrite (T D I), vty_eqb_refl. reflexivity.
      * intros D. destruct (U D) as [-> | ->]; [rewrite vty_eqb_refl|]; auto.
    + intros _. right. intros D. destruct (U D) as [-> | ->]; [now rewrite Et|reflexivity].
  - intros Hu. destruct (H Hu) as [R|R]; [left|right].
    + apply refused_bind. now apply refused_bind.
    + intros D. now rewrite R.
Qed.
(** x op= a is checked like x op a, but for the result *)
Lemma compound_infix op op' : In (op, op') compound -> existsb (optok_eqb op') infix_ops = true /\ arithmetic op' = true /\ op <> OP_ASSIGN /\ find (fun p => optok_eqb (fst p) op) compound = Some (op, op') /\
  forall l r Γ, check_binary op l r Γ = check_binary op' l r Γ.
Proof.
  intros H. cbn [compound In] in H. repeat (destruct H as [H|H]; [injection H as <- <-; repeat split; try reflexivity; try discriminate; intros [l n] [r m] Γ; unfold check_binary, unify; cbn [fst snd]; rewrite !andb_false_r; reflexivity|]). contradiction.
Qed.
Lemma compound_passed Γ G D0 op op' x a : In (op, op') compound -> pure a = true -> same G Γ -> novoids Γ ->
  passed (type_expr Γ (EBin op (EVar x) a)) (do! (_, Γ) <- validateE (EBin op (EVar x) a) (G, D0); Ret Γ) D0
    (fun D => gexpr D Γ (EBin op (EVar x) a)) (unconditional a = true).
Proof.
  intros Hc Hp S N. destruct (compound_infix _ _ Hc) as (Ho & Har & Na & Hf & Hcb).
  assert (type_expr Γ (EBin op (EVar x) a) = match Γ x, has_type Γ (EBin op' (EVar x) a) with Some s, Some t => if vty_eqb s t then Some Γ else None | _, _ => None end) as ->.
  { unfold Validate_Spec.type_expr. rewrite Hf. clear -Hc. cbn [compound In] in Hc. repeat (destruct Hc as [Hc|Hc]; [injection Hc as <- <-; reflexivity|]). contradiction. }
  assert (forall D, gexpr D Γ (EBin op (EVar x) a) = match Γ x, type_in D Γ (EBin op' (EVar x) a) with Some s, Some t => if vty_eqb s t then Some Γ else None | _, _ => None end) as Eg.
  { intros D. unfold Validate_Codegen.gexpr. rewrite Hf. clear -Hc. cbn [compound In] in Hc. repeat (destruct Hc as [Hc|Hc]; [injection Hc as <- <-; reflexivity|]). contradiction. }
  assert (validateE (EBin op (EVar x) a) (G, D0) = validateE (EBin op' (EVar x) a) (G, D0)) as ->.
  { cbn [validateE]. destruct (var_tag x (fst (G, D0))); cbn [obind]; auto. destruct (validateE a (G, D0)) as [[y Γ1]| | |]; cbn [obind]; auto. }
  destruct (Γ x) as [s|] eqn:Ex; [|intros _; right; exact Eg].
  assert (pure (EBin op' (EVar x) a) = true) as Hp'. { cbn [pure]. now rewrite Ho, Hp. }
  pose proof (expr_checked Γ (EBin op' (EVar x) a) Hp' G D0 (same_agree _ _ _ S)) as H. unfold checked in H. unfold passed. destruct (has_type Γ (EBin op' (EVar x) a)) as [t|].
  - destruct H as [(n & D1 & E & T) U]. destruct (vty_eqb s t) eqn:Et.
    + split.
      * exists G, D1. rew E. cbn [obind]. repeat split; auto. intros D I. rewrite Eg, (T D I), Et. reflexivity.
      * intros D. rewrite Eg. destruct (U D) as [-> | ->]; [rewrite Et|]; auto.
    + intros _. right. intros D. rewrite Eg. destruct (U D) as [-> | ->]; [now rewrite Et|reflexivity].
  - intros Hu. destruct (H Hu) as [R|R]; [left; now apply refused_bind|right]. intros D. now rewrite Eg, R.
Qed.
Lemma expr_passed Γ G D0 e : simple_expr e = true -> same G Γ -> novoids Γ ->
  passed (type_expr Γ e) (do! (_, Γ) <- validateE e (G, D0); Ret Γ) D0 (fun D => gexpr D Γ e) (unconditional e = true).
Proof.
  intros Hs S N. destruct (Codegen_Results.simple_cases e Hs) as [(x & a & ->)|[(x & a & ->)|[(op & op' & x & a & -> & Hf & Na)|Hp]]].
  - cbn [simple_expr] in Hs. apply andb_true_iff in Hs as [Hs Hr]. apply andb_true_iff in Hs as [Hp _]. refine (decl_passed Γ G D0 x a Hp _ S N).
    apply negb_true_iff in Hr. intros Hin. assert (existsb (text_eqb x) (reads a) = true) as Q; [|congruence]. apply existsb_exists. exists x. split; [assumption|apply text_eqb_refl].
  - exact (assign_passed Γ G D0 x a Hs S N).
  - assert (In (op, op') compound) as Hin. { apply find_some in Hf as [Hin E]. assumption. }
    refine (compound_passed Γ G D0 op op' x a Hin _ S N). clear -Hin Hs. cbn [compound In] in Hin. repeat (destruct Hin as [Hin|Hin]; [injection Hin as <- <-; exact Hs|]). contradiction.
  - assert (type_expr Γ e = match has_type Γ e with Some _ => Some Γ | None => None end) as ->.
    { destruct e as [| | | | | | | | |op a b|]; try reflexivity. cbn [pure] in Hp. apply andb_true_iff in Hp as [Hp _]. apply andb_true_iff in Hp as [Hop _]. destruct op; try discriminate Hop; destruct a; reflexivity. }
    assert (forall D, gexpr D Γ e = match type_in D Γ e with Some _ => Some Γ | None => None end) as Eg.
    { intros D. destruct e as [| | | | | | | | |op a b|]; try reflexivity. cbn [pure] in Hp. apply andb_true_iff in Hp as [Hp _]. apply andb_true_iff in Hp as [Hop _]. destruct op; try discriminate Hop; destruct a; reflexivity. }
    pose proof (pure_passed Γ G D0 e Hp S N) as H. unfold passed in *. destruct (has_type Γ e).
    + destruct H as [(G' & D1 & E & A & B & T) U]. split; [exists G', D1; repeat split; auto; intros D I; now rewrite Eg, T|]. intros D. now rewrite Eg.
    + intros Hu. destruct (H Hu) as [R|R]; [auto|right]. intros D. now rewrite Eg, R.
Qed.

(** *** Statements *)
Lemma passed_bind T o D0 g u1 T2 o2 g2 u2 : passed T o D0 g u1 ->
  (forall Γ' G' D1, T = Some Γ' -> same G' Γ' -> novoids Γ' -> passed (T2 Γ') (o2 (G', D1 ++ D0)) (D1 ++ D0) (g2 Γ') u2) ->
  passed (match T with Some Γ' => T2 Γ' | None => None end) (do! c <- o; o2 c) D0 (fun D => match g D with Some Γ' => g2 Γ' D | None => None end) (u1 /\ u2).
Proof.
  unfold passed at 1 3. destruct T as [Γ'|].
  - intros [(G' & D1 & E & S & N & T1) U1] H2. specialize (H2 Γ' G' D1 eq_refl S N). rewrite E. cbn [obind]. unfold passed in H2. destruct (T2 Γ') as [Γ2|].
    + destruct H2 as [(G2 & D2 & E2 & S2 & N2 & T3) U2]. split.
      * exists G2, (D2 ++ D1). rewrite <- app_assoc. repeat split; auto. intros D I. rewrite T1, T3; [reflexivity|..]; intros x Hx; apply I; apply in_or_app; auto.
      * intros D. destruct (U1 D) as [-> | ->]; auto.
    + intros [_ Hu]. destruct (H2 Hu) as [R|R]; [auto|right]. intros D. destruct (U1 D) as [-> | ->]; auto.
  - intros H _ [Hu _]. destruct (H Hu) as [R|R]; [left; now apply refused_bind|right]. intros D. now rewrite R.
Qed.
Lemma passed_eq T T' o o' D0 g g' (u u' : Prop) : passed T o D0 g u -> T' = T -> o' = o -> (forall D, g' D = g D) -> (u' -> u) -> passed T' o' D0 g' u'.
Proof.
  intros H -> -> Eg Hu. unfold passed in *. destruct T.
  - destruct H as [(G & D1 & E & S & N & T) U]. split; [exists G, D1; repeat split; auto; intros D I; rewrite Eg; auto|]. intros D. rewrite Eg. auto.
  - intros Hu'. destruct (H (Hu Hu')) as [R|R]; [auto|right]. intros D. rewrite Eg. auto.
Qed.
Variable ret : vty.
Notation vstmt := (type_stmt has_type type_expr ret).
Notation vlist := (type_list has_type type_expr ret).
Notation gstmt D := (type_stmt (type_in D) (gexpr D) ret).
Notation glist D := (type_list (type_in D) (gexpr D) ret).
Notation check_stmt := (validate_stmt op_fun fsig ret).
Definition fine (s : stmt) : Prop := simple (denote_stmt s) = true -> forall Γ G D0 l, same G Γ -> novoids Γ ->
  passed (vstmt l Γ (denote_stmt s)) (check_stmt l s (G, D0)) D0 (fun D => gstmt D l Γ (denote_stmt s)) (unconditional_stmt (denote_stmt s) = true).
Lemma list_passed ss : Forall fine ss -> forallb simple (map denote_stmt ss) = true -> forall Γ G D0 l, same G Γ -> novoids Γ ->
  passed (vlist l Γ (map denote_stmt ss)) (validate_list check_stmt l ss (G, D0)) D0 (fun D => glist D l Γ (map denote_stmt ss)) (forallb unconditional_stmt (map denote_stmt ss) = true).
Proof.
  induction 1 as [|s ss H _ IH]; intros Hs Γ G D0 l S N.
  - split; [|auto]. exists G, []. repeat split; auto.
  - cbn [map forallb] in Hs. apply andb_true_iff in Hs as [H1 H2]. cbn [map].
    eapply passed_eq; [eapply (passed_bind _ _ D0 _ _ (fun Γ => vlist l Γ (map denote_stmt ss)) (validate_list check_stmt l ss) (fun Γ D => glist D l Γ (map denote_stmt ss)) _ (H H1 Γ G D0 l S N)); intros Γ' G' D1 _ S' N'; apply (IH H2 Γ' G' (D1 ++ D0) l S' N')|reflexivity..|].
    cbn [forallb]. intros Hu. now apply andb_true_iff in Hu.
Qed.
Lemma cond_passed Γ G D0 c : pure c = true -> same G Γ -> novoids Γ ->
  passed (if is_bool has_type Γ c then Some Γ else None) (do! (x, Γ) <- validateE c (G, D0); if vty_eqb (fst x) TBit then Ret Γ else Err) D0
    (fun D => if is_bool (type_in D) Γ c then Some Γ else None) (unconditional c = true).
Proof.
  intros Hp S N. pose proof (expr_checked Γ c Hp G D0 (same_agree _ _ c S)) as H. unfold checked in H. unfold passed, is_bool. destruct (has_type Γ c) as [t|].
  - destruct H as [(n & D1 & E & T) U]. rew E. cbn [obind fst]. destruct t as [| |m]; [intros _; left; exact Logic.I| |intros _; left; exact Logic.I]. rewrite vty_eqb_refl. split.
    + exists G, D1. repeat split; auto. intros D I. now rewrite (T D I).
    + intros D. destruct (U D) as [-> | ->]; auto.
  - intros Hu. destruct (H Hu) as [R|R]; [left; now apply refused_bind|right]. intros D. now rewrite R.
Qed.
Lemma choice_passed c b : pure (denote c) = true -> Forall fine b -> forallb simple (map denote_stmt b) = true -> forall Γ G D0 l, same G Γ -> novoids Γ ->
  passed (if is_bool has_type Γ (denote c) then vlist l Γ (map denote_stmt b) else None) (validate_choice op_fun fsig (validate_list check_stmt l) c b (G, D0)) D0
    (fun D => if is_bool (type_in D) Γ (denote c) then glist D l Γ (map denote_stmt b) else None) (unconditional (denote c) && forallb unconditional_stmt (map denote_stmt b) = true).
Proof.
  intros Hc Hb Hs Γ G D0 l S N.
  eapply passed_eq; [eapply (passed_bind _ _ D0 _ _ (fun Γ => vlist l Γ (map denote_stmt b)) (validate_list check_stmt l b) (fun Γ D => glist D l Γ (map denote_stmt b)) _ (cond_passed Γ G D0 (denote c) Hc S N)); intros Γ' G' D1 _ S' N'; apply (list_passed b Hb Hs Γ' G' (D1 ++ D0) l S' N')|..].
  - destruct (is_bool _ _ _); reflexivity.
  - unfold validate_choice. rewrite validate_denote. destruct (validateE (denote c) (G, D0)) as [[x Γ1]| | |]; cbn [obind]; auto. destruct (vty_eqb (fst x) TBit); reflexivity.
  - intros D. cbn beta. destruct (is_bool (type_in D) Γ (denote c)); reflexivity.
  - intros Hu. now apply andb_true_iff in Hu.
Qed.
Definition elifsV (l : bool) : ctx -> list (expr * list st) -> option ctx :=
  fix elifs Γ es :=
    match es with
    | [] => Some Γ
    | (c, b) :: es' => if is_bool has_type Γ c then match vlist l Γ b with Some Γ => elifs Γ es' | None => None end else None
    end.
Definition elifsG (D : calls) (l : bool) : ctx -> list (expr * list st) -> option ctx :=
  fix elifs Γ es :=
    match es with
    | [] => Some Γ
    | (c, b) :: es' => if is_bool (type_in D) Γ c then match glist D l Γ b with Some Γ => elifs Γ es' | None => None end else None
    end.
Notation branches es := (map (fun x => match x with (c, b) => (denote c, map denote_stmt b) end) es).
Lemma elifs_passed es : Forall (fun x => Forall fine (snd x)) es ->
  forallb (fun x => match x with (c, b) => pure c && forallb simple b end) (branches es) = true -> forall Γ G D0 l, same G Γ -> novoids Γ ->
  passed (elifsV l Γ (branches es)) (validate_elifs op_fun fsig (validate_list check_stmt l) es (G, D0)) D0 (fun D => elifsG D l Γ (branches es))
    (forallb (fun x => match x with (c, b) => unconditional c && forallb unconditional_stmt b end) (branches es) = true).
Proof.
  induction 1 as [|[c b] es H _ IH]; intros Hs Γ G D0 l S N.
  - split; [|auto]. exists G, []. repeat split; auto.
  - cbn [map forallb] in Hs. apply andb_true_iff in Hs as [H1 H2]. apply andb_true_iff in H1 as [Hc H1]. cbn [snd] in H. cbn [map].
    eapply passed_eq; [eapply (passed_bind _ _ D0 _ _ (fun Γ => elifsV l Γ (branches es)) (validate_elifs op_fun fsig (validate_list check_stmt l) es) (fun Γ D => elifsG D l Γ (branches es)) _ (choice_passed c b Hc H H1 Γ G D0 l S N)); intros Γ' G' D1 _ S' N'; apply (IH H2 Γ' G' (D1 ++ D0) l S' N')|..].
    + change (elifsV l Γ ((denote c, map denote_stmt b) :: branches es)) with (if is_bool has_type Γ (denote c) then match vlist l Γ (map denote_stmt b) with Some Γ => elifsV l Γ (branches es) | None => None end else None). destruct (is_bool _ _ _); reflexivity.
    + reflexivity.
    + intros D. change (elifsG D l Γ ((denote c, map denote_stmt b) :: branches es)) with (if is_bool (type_in D) Γ (denote c) then match glist D l Γ (map denote_stmt b) with Some Γ => elifsG D l Γ (branches es) | None => None end else None). cbn beta. destruct (is_bool (type_in D) Γ (denote c)); reflexivity.
    + cbn [forallb]. intros Hu. now apply andb_true_iff in Hu.
Qed.
Theorem stmt_fine : forall s, fine s.
Proof.
  apply stmt_ind2.
  - intros [o|] Hs Γ G D0 l S N; [|split; [|auto]; exists G, []; repeat split; auto]. cbn [denote_stmt simple unconditional_stmt] in *.
    pose proof (expr_checked Γ (denote o) Hs G D0 (same_agree _ _ _ S)) as H. unfold checked in H. cbn [type_stmt validate_stmt]. rewrite validate_denote. unfold passed. destruct (has_type Γ (denote o)) as [t|].
    + destruct H as [(n & D1 & E & T) U]. rew E. cbn [obind fst]. destruct (pass t ret) eqn:P.
      * rewrite (pass_cast _ _ P). split; [exists G, D1; repeat split; auto; intros D I; now rewrite (T D I), P|]. intros D. destruct (U D) as [-> | ->]; [rewrite P|]; auto.
      * intros _. right. intros D. destruct (U D) as [-> | ->]; [now rewrite P|reflexivity].
    + intros Hu. destruct (H Hu) as [R|R]; [left; now apply refused_bind|right]. intros D. now rewrite R.
  - intros o Hs Γ G D0 l S N. cbn [denote_stmt simple unconditional_stmt] in *. cbn [type_stmt validate_stmt]. rewrite validate_denote. now apply expr_passed.
  - intros c b H Hs Γ G D0 l S N. cbn [denote_stmt simple unconditional_stmt] in *. apply andb_true_iff in Hs as [Hc Hb]. exact (choice_passed c b Hc H Hb Γ G D0 true S N).
  - intros c b es els H Hes Hel Hs Γ G D0 l S N. cbn [denote_stmt simple] in Hs. apply andb_true_iff in Hs as [Hs Hsel]. apply andb_true_iff in Hs as [Hs Hses]. apply andb_true_iff in Hs as [Hc Hb].
    set (els' := option_map (map denote_stmt) els).
    assert (forall Γ G D0, same G Γ -> novoids Γ -> passed (match els' with Some b => vlist l Γ b | None => Some Γ end) (match els with Some b => validate_list check_stmt l b (G, D0) | None => Ret (G, D0) end) D0
        (fun D => match els' with Some b => glist D l Γ b | None => Some Γ end) (match els' with Some b => forallb unconditional_stmt b | None => true end = true)) as Pe.
    { intros Γ' G' D' S' N'. unfold els'. destruct els as [b2|]; cbn [option_map]; [apply list_passed; auto|]. split; [|auto]. exists G', []. repeat split; auto. }
    pose proof (choice_passed c b Hc H Hb Γ G D0 l S N) as P1.
    pose proof (passed_bind _ _ D0 _ _ (fun Γ => elifsV l Γ (branches es)) (validate_elifs op_fun fsig (validate_list check_stmt l) es) (fun Γ D => elifsG D l Γ (branches es)) _ P1 (fun Γ' G' D1 _ S' N' => elifs_passed es Hes Hses Γ' G' (D1 ++ D0) l S' N')) as P2.
    pose proof (passed_bind _ _ D0 _ _ (fun Γ => match els' with Some b => vlist l Γ b | None => Some Γ end) (fun c => match els with Some b => validate_list check_stmt l b c | None => Ret c end) (fun Γ D => match els' with Some b => glist D l Γ b | None => Some Γ end) _ P2 (fun Γ' G' D1 _ S' N' => Pe Γ' G' (D1 ++ D0) S' N')) as P3.
    eapply passed_eq; [exact P3|..].
    + cbn [denote_stmt]. change (match els with Some b0 => Some (map denote_stmt b0) | None => None end) with els'.
      change (vstmt l Γ (StIf (denote c) (map denote_stmt b) (branches es) els')) with
        (if is_bool has_type Γ (denote c) then match vlist l Γ (map denote_stmt b) with None => None | Some Γ1 =>
         match elifsV l Γ1 (branches es) with None => None | Some Γ2 => match els' with Some b1 => vlist l Γ2 b1 | None => Some Γ2 end end end else None).
      destruct (is_bool _ _ _); [|reflexivity]. destruct (vlist l Γ (map denote_stmt b)); reflexivity.
    + cbn [validate_stmt]. destruct (validate_choice op_fun fsig (validate_list check_stmt l) c b (G, D0)); cbn [obind]; auto.
    + intros D. cbn [denote_stmt]. change (match els with Some b0 => Some (map denote_stmt b0) | None => None end) with els'.
      change (gstmt D l Γ (StIf (denote c) (map denote_stmt b) (branches es) els')) with
        (if is_bool (type_in D) Γ (denote c) then match glist D l Γ (map denote_stmt b) with None => None | Some Γ1 =>
         match elifsG D l Γ1 (branches es) with None => None | Some Γ2 => match els' with Some b1 => glist D l Γ2 b1 | None => Some Γ2 end end end else None).
      cbn beta. destruct (is_bool (type_in D) Γ (denote c)); [|reflexivity]. destruct (glist D l Γ (map denote_stmt b)); reflexivity.
    + cbn [denote_stmt unconditional_stmt]. intros Hu. apply andb_true_iff in Hu as [Hu He]. apply andb_true_iff in Hu as [Hu1 Hu2]. repeat split; auto.
  - intros p Hs Γ G D0 l S N. cbn [denote_stmt type_stmt validate_stmt]. destruct l; [|intros _; left; exact Logic.I]. split; [|auto]. exists G, []. repeat split; auto.
  - intros p Hs Γ G D0 l S N. cbn [denote_stmt type_stmt validate_stmt]. destruct l; [|intros _; left; exact Logic.I]. split; [|auto]. exists G, []. repeat split; auto.
Qed.

(** *** Functions *)
Lemma params_passed ps : Forall (fun p => fst p <> TVoid) ps -> forall Γ G, same G Γ -> novoids Γ ->
  match validate_params ps (G, []) with
  | Ret c => NoDup (map snd ps) /\ (forall x, In x (map snd ps) -> Γ x = None) /\ snd c = [] /\ same (fst c) (fun x => match known ps x with Some t => Some t | None => Γ x end)
  | Err => ~ (NoDup (map snd ps) /\ forall x, In x (map snd ps) -> Γ x = None)
  | _ => False
  end.
Proof.
  induction 1 as [|[t x] ps Hv _ IH]; intros Γ G S N; cbn [validate_params map snd known fst] in *.
  - split; [constructor|]. split; [contradiction|]. auto.
  - unfold fresh. rewrite (S x). destruct (Γ x) as [s|] eqn:Ex.
    + intros [_ H]. specialize (H x (or_introl eq_refl)). congruence.
    + assert (add_local x t G = (x, t) :: G) as ->. { unfold add_local. now rewrite (S x), Ex. }
      assert (same ((x, t) :: G) (extend Γ x t)) as S1. { intros y. rewrite find_cons_text. unfold extend. rewrite (text_eqb_sym x y). destruct (text_eqb y x); auto. }
      assert (novoids (extend Γ x t)) as N1. { intros y. unfold extend. destruct (text_eqb y x); [congruence|apply N]. }
      specialize (IH (extend Γ x t) ((x, t) :: G) S1 N1). match type of IH with match ?a with _ => _ end => match goal with |- match ?b with _ => _ end => change b with a; destruct a as [c| | |] end end; auto.
      * destruct IH as (Nd & Fr & Sn & Sm). assert (~ In x (map snd ps)) as Nx. { intros Hx. specialize (Fr x Hx). unfold extend in Fr. rewrite text_eqb_refl in Fr. discriminate Fr. }
        split; [now constructor|]. split; [|split; [assumption|]].
        { intros y [<-|Hy]; [assumption|]. specialize (Fr y Hy). unfold extend in Fr. destruct (text_eqb y x); [discriminate Fr|assumption]. }
        { intros y. rewrite (Sm y). unfold extend. destruct (text_eqb y x) eqn:E; [|reflexivity]. destruct (known ps y) as [u|] eqn:Eu; [|reflexivity]. exfalso. apply text_eqb_eq in E. subst y. apply Nx. clear -Eu. induction ps as [|[a b] ps IHp]; cbn [known map snd] in *; [discriminate Eu|]. unfold extend in Eu. destruct (text_eqb x b) eqn:Eb; [left; symmetry; now apply text_eqb_eq|right; auto]. }
      * intros [Nd Fr]. apply IH. inversion Nd; subst. split; [assumption|]. intros y Hy. unfold extend. destruct (text_eqb y x) eqn:E; [apply text_eqb_eq in E; subst; contradiction|]. apply Fr. now right.
Qed.
Theorem function_passed ps body : Forall (fun p => fst p <> TVoid) ps -> forallb simple (map denote_stmt body) = true ->
  match validate_function op_fun fsig ret ps body with
  | Ret c => NoDup (map snd ps) /\ (vlist false (known ps) (map denote_stmt body) <> None -> forall D, incl (snd c) D -> glist D false (known ps) (map denote_stmt body) <> None) /\
      (forallb unconditional_stmt (map denote_stmt body) = true -> vlist false (known ps) (map denote_stmt body) = None -> forall D, glist D false (known ps) (map denote_stmt body) = None)
  | _ => ~ (NoDup (map snd ps) /\ vlist false (known ps) (map denote_stmt body) <> None)
  end.
Proof.
  intros Hv Hs. unfold validate_function. assert (novoids (fun _ => None)) as N0 by (intros x; discriminate). pose proof (params_passed ps Hv (fun _ => None) [] (fun _ => eq_refl) N0) as P.
  match type of P with match ?a with _ => _ end => match goal with |- context [validate_params ps ?q] => change (validate_params ps q) with a end; destruct a as [[G D]| | |] end; cbn [obind]; [|intros [Nd _]; apply P; auto|contradiction..]. destruct P as (Nd & _ & Sn & Sm). cbn [fst snd] in *. subst D.
  assert (same G (known ps)) as Sk. { intros x. rewrite (Sm x). now destruct (known ps x). }
  assert (novoids (known ps)) as Nk. { clear -Hv. induction Hv as [|[t x] ps H _ IH]; intros y; cbn [known]; [discriminate|]. unfold extend. destruct (text_eqb y x); [cbn [fst] in H; congruence|apply IH]. }
  pose proof (list_passed body (proj2 (Forall_forall fine body) (fun s _ => stmt_fine s)) Hs (known ps) G [] false Sk Nk) as H. unfold validate_stmts. unfold passed in H. destruct (vlist false (known ps) (map denote_stmt body)) as [Γ'|].
  - destruct H as [(G' & D1 & E & S' & N' & T) U]. match type of E with ?a = _ => match goal with |- match ?b with _ => _ end => change b with a end end. rewrite E. cbn [snd]. split; [assumption|]. split; [|discriminate]. rewrite app_nil_r. intros _ D I. rewrite (T D I). discriminate.
  - match goal with |- match ?b with _ => _ end => match type of H with context [refused ?a] => change b with a; destruct a as [c| | |] end end.
    + split; [assumption|]. split; [congruence|]. intros Hu _. destruct (H Hu) as [R|R]; [contradiction|assumption].
    + now intros [_ Q].
    + now intros [_ Q].
    + now intros [_ Q].
Qed.

(** *** The checks themselves never fail otherwise *)
Definition sound {A} (o : outcome A) : Prop := match o with Ret _ | Err => True | _ => False end.
Lemma sound_bind {A B} (o : outcome A) (f : A -> outcome B) : sound o -> (forall a, sound (f a)) -> sound (do! x <- o; f x).
Proof. destruct o; cbn; auto. Qed.
Notation fits := (within (fun _ _ => true)).
Lemma number_sound v ty : fits (ENum v ty) = true -> sound (number_type v ty).
Proof.
  cbn [within]. unfold build_const, number_type. cbn [snd fst]. destruct ty; [intros; exact Logic.I|]. unfold build_untyped, to_i64. cbn zeta. destruct (dbl_trunc v <? 2 ^ 63)%Z; cbn [obind]; [intros; exact Logic.I|discriminate].
Qed.
Lemma unify_sound op l r : sound (unify op l r).
Proof. unfold unify. repeat match goal with |- context [if ?b then _ else _] => destruct b end; exact Logic.I. Qed.
Lemma binary_sound op l r Γ : sound (check_binary op l r Γ).
Proof. unfold check_binary. apply sound_bind; [apply unify_sound|]. intros [a b]. destruct op; try exact Logic.I; match goal with |- sound (if ?b then _ else _) => destruct b; exact Logic.I end. Qed.
Lemma expr_sound e : fits e = true -> forall Γ, sound (validateE e Γ).
Proof.
  induction e as [b|v ty|t|x|f es IH|n ms|op a IH|op a b IHa IHb|c a b IHc IHa IHb|x|es] using expr_ind1; intros Hf Γ; cbn [validateE]; try exact Logic.I.
  - apply sound_bind; [now apply number_sound|]. intros; exact Logic.I.
  - apply sound_bind; [|intros; exact Logic.I]. unfold var_tag. destruct (find_text (fst Γ) x); [exact Logic.I|]. destruct (text_eqb x (lit "pi") || text_eqb x (lit "e")); exact Logic.I.
  - cbn [within] in Hf. apply andb_true_iff in Hf as [Hf _]. assert (forall Γ, sound (argsE validateE es Γ)) as A.
    { induction IH as [|e es He _ IHes]; intros G; cbn [argsE forallb] in *; [exact Logic.I|]. apply andb_true_iff in Hf as [H1 H2]. apply sound_bind; [auto|]. intros [x G1]. apply sound_bind; [auto|]. intros [ts G2]. exact Logic.I. }
    destruct (builtin_op f) as [op|].
    + apply sound_bind; [apply A|]. intros [ts G]. destruct (compute_type None ts) as [t|]; [|exact Logic.I]. destruct (op_fun op t); exact Logic.I.
    + destruct (other_name f); [exact Logic.I|]. destruct (fsig f) as [[ps rt]|]; [|exact Logic.I]. apply sound_bind; [apply A|]. intros [ts G]. destruct (check_args ts ps); exact Logic.I.
  - cbn [within] in Hf. apply andb_true_iff in Hf as [_ Hf]. apply sound_bind; [auto|]. intros [x G]. apply sound_bind; [|intros; exact Logic.I]. unfold check_unary. destruct op; try exact Logic.I; match goal with |- sound (if ?b then _ else _) => destruct b; exact Logic.I end.
  - cbn [within] in Hf. apply andb_true_iff in Hf as [Hf Hb]. apply andb_true_iff in Hf as [_ Ha]. apply sound_bind; [auto|]. intros [x G]. apply sound_bind; [auto|]. intros [y G2]. apply binary_sound.
  - cbn [within] in Hf. apply andb_true_iff in Hf as [Hf Hb]. apply andb_true_iff in Hf as [Hf Ha]. apply andb_true_iff in Hf as [_ Hc]. apply sound_bind; [auto|]. intros [x G]. apply sound_bind; [auto|]. intros [y G2]. apply sound_bind; [auto|]. intros [z G3]. apply sound_bind; [|intros; exact Logic.I].
    unfold check_select. destruct (vty_eqb (fst x) TBit); [|exact Logic.I]. destruct (cast_ok (fst y) (fst z)); [exact Logic.I|]. destruct (cast_ok (fst z) (fst y)); exact Logic.I.
  - destruct (fresh x (fst Γ)); exact Logic.I.
Qed.
Lemma fits_expr e : simple_expr e = true -> within_expr (fun _ _ => true) e = true -> fits e = true.
Proof.
  intros Hs. destruct (Codegen_Results.simple_cases e Hs) as [(x & a & ->)|[(x & a & ->)|[(op & op' & x & a & -> & Hf & Na)|Hp]]]; auto.
  - unfold within_expr. rewrite Hf. intros H. cbn [within]. destruct op; try discriminate Hf; try exact H; now apply andb_true_iff in H as [_ ->].
  - destruct e as [| | | | | | | | |op a b|]; auto. cbn [pure] in Hp. apply andb_true_iff in Hp as [Hp _]. apply andb_true_iff in Hp as [Hop _]. destruct op; try discriminate Hop; destruct a; auto.
Qed.
Definition sound_stmt (s : stmt) : Prop := simple (denote_stmt s) = true -> within_stmt (fun _ _ => true) (denote_stmt s) = true -> forall l Γ, sound (check_stmt l s Γ).
Lemma list_sound ss : Forall sound_stmt ss -> forallb simple (map denote_stmt ss) = true -> forallb (within_stmt (fun _ _ => true)) (map denote_stmt ss) = true -> forall l Γ, sound (validate_list check_stmt l ss Γ).
Proof.
  induction 1 as [|s ss H _ IH]; intros Hs Hf l Γ; [exact Logic.I|]. cbn [map forallb] in Hs, Hf. apply andb_true_iff in Hs as [H1 H2], Hf as [F1 F2].
  change (validate_list check_stmt l (s :: ss) Γ) with (do! Γ <- check_stmt l s Γ; validate_list check_stmt l ss Γ). apply sound_bind; auto.
Qed.
Lemma choice_sound c b : fits (denote c) = true -> Forall sound_stmt b -> forallb simple (map denote_stmt b) = true -> forallb (within_stmt (fun _ _ => true)) (map denote_stmt b) = true -> forall l Γ, sound (validate_choice op_fun fsig (validate_list check_stmt l) c b Γ).
Proof.
  intros Hc Hb Hs Hf l Γ. unfold validate_choice. rewrite validate_denote. apply sound_bind; [now apply expr_sound|]. intros [x G]. destruct (vty_eqb (fst x) TBit); [|exact Logic.I]. now apply list_sound.
Qed.
Theorem stmt_sound : forall s, sound_stmt s.
Proof.
  apply stmt_ind2.
  - intros [o|] Hs Hf l Γ; cbn [validate_stmt]; [|exact Logic.I]. rewrite validate_denote. apply sound_bind; [now apply expr_sound|]. intros [x G]. destruct (cast_ok (fst x) ret); exact Logic.I.
  - intros o Hs Hf l Γ. cbn [validate_stmt]. rewrite validate_denote. apply sound_bind; [|intros []; exact Logic.I]. apply expr_sound. now apply fits_expr.
  - intros c b H Hs Hf l Γ. cbn [denote_stmt simple within_stmt] in *. apply andb_true_iff in Hs as [Hc Hb], Hf as [Fc Fb]. cbn [validate_stmt]. now apply choice_sound.
  - intros c b es els H Hes Hel Hs Hf l Γ. cbn [denote_stmt simple within_stmt] in *. apply andb_true_iff in Hs as [Hs Hsel], Hf as [Hf Fel]. apply andb_true_iff in Hs as [Hs Hses], Hf as [Hf Fes]. apply andb_true_iff in Hs as [Hc Hb], Hf as [Fc Fb].
    cbn [validate_stmt]. apply sound_bind; [now apply choice_sound|]. intros G. apply sound_bind.
    + clear -Hes Hses Fes. revert G. induction Hes as [|[c b] es H _ IH]; intros G; [exact Logic.I|]. cbn [map forallb snd] in *. apply andb_true_iff in Hses as [H1 H2], Fes as [F1 F2]. apply andb_true_iff in H1 as [Hc H1], F1 as [Fc F1].
      change (validate_elifs op_fun fsig (validate_list check_stmt l) ((c, b) :: es) G) with (do! Γ <- validate_choice op_fun fsig (validate_list check_stmt l) c b G; validate_elifs op_fun fsig (validate_list check_stmt l) es Γ). apply sound_bind; [now apply choice_sound|]. intros G1. apply IH; auto.
    + intros G2. destruct els as [b2|]; [now apply list_sound|exact Logic.I].
  - intros p Hs Hf l Γ. cbn [validate_stmt]. destruct l; exact Logic.I.
  - intros p Hs Hf l Γ. cbn [validate_stmt]. destruct l; exact Logic.I.
Qed.
Lemma function_sound ps body : forallb simple (map denote_stmt body) = true -> forallb (within_stmt (fun _ _ => true)) (map denote_stmt body) = true -> sound (validate_function op_fun fsig ret ps body).
Proof.
  intros Hs Hf. unfold validate_function. apply sound_bind.
  - generalize (([], []) : fctx). induction ps as [|[t x] ps IH]; intros G; cbn [validate_params]; [exact Logic.I|]. destruct (fresh x (fst G)); [apply IH|exact Logic.I].
  - intros G. apply list_sound; auto. apply Forall_forall. intros s _. apply stmt_sound.
Qed.
End Checks.

(** *** Compilation *)
Section Compilation.
Variable llvm19 : bool.
Variable op_fun : optok -> vty -> option vty.
Variable fsig : text -> option (list vty * vty).
Hypothesis lib : library op_fun.
Hypothesis names : no_operator_names fsig.
Variables (ret : vty) (ps : list (vty * text)) (body : list stmt).
Hypothesis params : Forall (fun p => fst p <> TVoid) ps.
Hypothesis body_ok : forallb simple (map denote_stmt body) = true.
Notation tree := (map denote_stmt body).
Lemma declared_novoid D strict op t r : declared_fun op_fun D op t = Some r -> novoid strict r.
Proof. intros H _. unfold declared_fun in H. destruct (existsb _ D); [|discriminate H]. apply lib in H as [-> (n & ->)]. discriminate. Qed.
Lemma accepts : well_typed op_fun fsig ret ps tree -> exists F, compile_function llvm19 op_fun fsig ret ps body = Ret F.
Proof.
  intros [Nd W]. unfold compile_function. pose proof (function_passed llvm19 op_fun fsig lib names ret ps body params body_ok) as H. destruct (validate_function op_fun fsig ret ps body) as [c| | |]; cbn [obind]; [|now elim H..].
  destruct H as (_ & H & _). specialize (H W (snd c) (incl_refl _)).
  assert (forall f ts r, fsig f = Some (ts, r) -> novoid false r) as Hn by (intros f ts r _ Q; discriminate Q).
  pose proof (function_decided llvm19 (declared_fun op_fun (snd c)) fsig false (declared_novoid (snd c) false) Hn names ret ps body Nd params body_ok ltac:(discriminate)) as D.
  match type of D with match ?x with _ => _ end => destruct x; [exact D|now elim H] end.
Qed.
Lemma accepts_only F : forallb unconditional_stmt tree = true -> compile_function llvm19 op_fun fsig ret ps body = Ret F -> well_typed op_fun fsig ret ps tree.
Proof.
  intros Hu C. unfold compile_function in C. pose proof (function_passed llvm19 op_fun fsig lib names ret ps body params body_ok) as H. destruct (validate_function op_fun fsig ret ps body) as [c| | |]; try discriminate C. cbn [obind] in C.
  destruct H as (Nd & _ & H). split; [assumption|]. intros W. specialize (H Hu W (snd c)).
  assert (forall f ts r, fsig f = Some (ts, r) -> novoid false r) as Hn by (intros f ts r _ Q; discriminate Q).
  pose proof (function_decided llvm19 (declared_fun op_fun (snd c)) fsig false (declared_novoid (snd c) false) Hn names ret ps body Nd params body_ok ltac:(discriminate)) as D. rewrite H in D. rewrite C in D. exact D.
Qed.
Lemma never_crashes : (forall f ts, fsig f <> Some (ts, TVoid)) -> forallb (within_stmt (fun _ _ => true)) tree = true ->
  match compile_function llvm19 op_fun fsig ret ps body with Ret _ | Err => True | _ => False end.
Proof.
  intros Hv Hf. unfold compile_function. pose proof (function_sound op_fun fsig ret ps body body_ok Hf) as S. pose proof (function_passed llvm19 op_fun fsig lib names ret ps body params body_ok) as H. destruct (validate_function op_fun fsig ret ps body) as [c| | |]; cbn [obind]; auto.
  destruct H as (Nd & _). assert (forall f ts r, fsig f = Some (ts, r) -> novoid true r) as Hn. { intros f ts r E _ ->. exact (Hv f ts E). }
  pose proof (function_decided llvm19 (declared_fun op_fun (snd c)) fsig true (declared_novoid (snd c) true) Hn names ret ps body Nd params body_ok (fun _ => Hf)) as D.
  match type of D with match ?x with _ => _ end => destruct x; [destruct D as (F & ->); exact Logic.I|] end. unfold fails in D. destruct (compile _ _ _ _ _ _); auto. discriminate D.
Qed.
End Compilation.

(** *** Sources with several functions *)
Section Sources.
Variable llvm19 : bool.
Variable op_fun : optok -> vty -> option vty.
Variable reg : text -> option (list vty * vty).
Hypothesis lib : library op_fun.
Hypothesis names : no_operator_names reg.
Definition typed_in (done : list udf) (u : udf) : Prop := well_typed op_fun (local_sig (done ++ [u]) reg) (u_ret u) (u_params u) (map denote_stmt (u_body u)).
Notation typed_all := (well_typed_source op_fun reg).
Lemma local_names us : Forall plain us -> no_operator_names (local_sig us reg).
Proof.
  intros H op. unfold local_sig. destruct (find (fun u => text_eqb (u_name u) (op_str op)) us) as [u|] eqn:E; [|apply names]. apply find_some in E as [I E]. apply text_eqb_eq in E. rewrite Forall_forall in H. destruct (H u I) as (_ & _ & N). now elim (N op).
Qed.
Lemma named_in u done : existsb (fun v => text_eqb (u_name v) (u_name u)) done = true <-> In (u_name u) (map u_name done).
Proof.
  rewrite existsb_exists, in_map_iff. split; intros (v & A & B).
  - exists v. apply text_eqb_eq in B. auto.
  - exists v. split; [assumption|]. rewrite A. apply text_eqb_refl.
Qed.
Lemma novoid_false (f : text -> option (list vty * vty)) : forall g ts r, f g = Some (ts, r) -> novoid false r.
Proof. intros g ts r _ Q; discriminate Q. Qed.
Lemma one_accepts D done u c : Forall plain (done ++ [u]) -> typed_in done u -> validate_function op_fun (local_sig (done ++ [u]) reg) (u_ret u) (u_params u) (u_body u) = Ret c -> incl (snd c) D ->
  exists F, compile llvm19 (declared_fun op_fun D) (local_sig (done ++ [u]) reg) (u_ret u) (u_params u) (u_body u) = Ret F.
Proof.
  intros Hp [Nd W] E I. assert (plain u) as (P1 & P2 & P3). { apply Forall_app in Hp as [_ Hp]. now inversion Hp. } pose proof (local_names _ Hp) as Nm.
  pose proof (function_passed llvm19 op_fun (local_sig (done ++ [u]) reg) lib Nm (u_ret u) (u_params u) (u_body u) P1 P2) as H. rewrite E in H. destruct H as (_ & H & _). specialize (H W D I).
  pose proof (function_decided llvm19 (declared_fun op_fun D) (local_sig (done ++ [u]) reg) false (declared_novoid op_fun lib D false) (novoid_false _) Nm (u_ret u) (u_params u) (u_body u) Nd P1 P2 ltac:(discriminate)) as Q.
  match type of Q with match ?x with _ => _ end => destruct x; [exact Q|now elim H] end.
Qed.
Lemma one_checked done u : Forall plain (done ++ [u]) -> typed_in done u -> exists c, validate_function op_fun (local_sig (done ++ [u]) reg) (u_ret u) (u_params u) (u_body u) = Ret c.
Proof.
  intros Hp [Nd W]. assert (plain u) as (P1 & P2 & P3). { apply Forall_app in Hp as [_ Hp]. now inversion Hp. } pose proof (local_names _ Hp) as Nm.
  pose proof (function_passed llvm19 op_fun (local_sig (done ++ [u]) reg) lib Nm (u_ret u) (u_params u) (u_body u) P1 P2) as H. destruct (validate_function op_fun (local_sig (done ++ [u]) reg) (u_ret u) (u_params u) (u_body u)) as [c| | |]; [eauto|now elim H..].
Qed.
Lemma one_only D done u c F : Forall plain (done ++ [u]) -> forallb unconditional_stmt (map denote_stmt (u_body u)) = true -> validate_function op_fun (local_sig (done ++ [u]) reg) (u_ret u) (u_params u) (u_body u) = Ret c ->
  compile llvm19 (declared_fun op_fun D) (local_sig (done ++ [u]) reg) (u_ret u) (u_params u) (u_body u) = Ret F -> typed_in done u.
Proof.
  intros Hp Hu E C. assert (plain u) as (P1 & P2 & P3). { apply Forall_app in Hp as [_ Hp]. now inversion Hp. } pose proof (local_names _ Hp) as Nm.
  pose proof (function_passed llvm19 op_fun (local_sig (done ++ [u]) reg) lib Nm (u_ret u) (u_params u) (u_body u) P1 P2) as H. rewrite E in H. destruct H as (Nd & _ & H). split; [assumption|]. intros W. specialize (H Hu W D).
  pose proof (function_decided llvm19 (declared_fun op_fun D) (local_sig (done ++ [u]) reg) false (declared_novoid op_fun lib D false) (novoid_false _) Nm (u_ret u) (u_params u) (u_body u) Nd P1 P2 ltac:(discriminate)) as Q. rewrite H, C in Q. exact Q.
Qed.
Lemma all_checked us : forall done, Forall plain (done ++ us) -> typed_all done us -> forall r, Forall (fun u => u_ret u = r) us ->
  exists D, validate_functions op_fun reg r done us = Ret D /\ forall D', incl D D' -> exists Fs, compile_all llvm19 op_fun reg D' done us = Ret Fs.
Proof.
  induction us as [|u us IH]; intros done Hp Ht r Hr; cbn [validate_functions compile_all]; [exists []; eauto|]. destruct Ht as (T & Nn & Ht). inversion Hr as [|? ? Hu Hr']; subst.
  assert (Forall plain (done ++ [u])) as Hp1. { apply Forall_app in Hp as [H1 H2]. inversion H2; subst. apply Forall_app. auto. }
  destruct (one_checked done u Hp1 T) as (c & E). rewrite E. cbn [obind]. destruct (existsb (fun v => text_eqb (u_name v) (u_name u)) done) eqn:Ex; [apply named_in in Ex; contradiction|].
  destruct (IH (done ++ [u]) ltac:(now rewrite <- app_assoc) Ht (u_ret u) Hr') as (D & ED & C). rewrite ED. cbn [obind]. exists (snd c ++ D). split; [reflexivity|]. intros D' I.
  assert (incl (snd c) D') as I1 by (intros x Hx; apply I; apply in_or_app; auto). assert (incl D D') as I2 by (intros x Hx; apply I; apply in_or_app; auto).
  destruct (one_accepts D' done u c Hp1 T E I1) as (F & EF). rewrite EF. cbn [obind]. destruct (C D' I2) as (Fs & EFs). rewrite EFs. cbn [obind]. eauto.
Qed.
Lemma all_only us : forall done, Forall plain (done ++ us) -> Forall (fun u => forallb unconditional_stmt (map denote_stmt (u_body u)) = true) us -> forall r, Forall (fun u => u_ret u = r) us ->
  forall D, validate_functions op_fun reg r done us = Ret D -> forall D' Fs, compile_all llvm19 op_fun reg D' done us = Ret Fs -> typed_all done us.
Proof.
  induction us as [|u us IH]; intros done Hp Hc r Hr D ED D' Fs EF; cbn [validate_functions compile_all well_typed_source] in *; [exact Logic.I|]. inversion Hr as [|? ? Hu Hr']; subst. inversion Hc as [|? ? Hc1 Hc']; subst.
  assert (Forall plain (done ++ [u])) as Hp1. { apply Forall_app in Hp as [H1 H2]. inversion H2; subst. apply Forall_app. auto. }
  destruct (validate_function op_fun (local_sig (done ++ [u]) reg) (u_ret u) (u_params u) (u_body u)) as [c| | |] eqn:E; try discriminate ED. cbn [obind] in ED. destruct (existsb (fun v => text_eqb (u_name v) (u_name u)) done) eqn:Ex; [discriminate ED|].
  destruct (validate_functions op_fun reg (u_ret u) (done ++ [u]) us) as [D2| | |] eqn:E2; try discriminate ED. destruct (compile llvm19 (declared_fun op_fun D') (local_sig (done ++ [u]) reg) (u_ret u) (u_params u) (u_body u)) as [F| | |] eqn:EC; try discriminate EF. cbn [obind] in EF.
  destruct (compile_all llvm19 op_fun reg D' (done ++ [u]) us) as [Fs2| | |] eqn:EC2; try discriminate EF.
  split; [eapply one_only; eauto|]. split; [intros Hx; apply named_in in Hx; congruence|]. eapply (IH (done ++ [u])); eauto. now rewrite <- app_assoc.
Qed.
Lemma source_accepts us r : Forall plain us -> Forall (fun u => u_ret u = r) us -> typed_all [] us -> exists Fs, compile_source llvm19 op_fun reg us = Ret Fs.
Proof.
  intros Hp Hr Ht. unfold compile_source. destruct us as [|u us].
  - cbn. eauto.
  - assert (u_ret u = r) as -> by now inversion Hr. destruct (all_checked (u :: us) [] Hp Ht r Hr) as (D & E & C). rewrite E. cbn [obind]. apply C. apply incl_refl.
Qed.
Lemma source_accepts_only us r Fs : Forall plain us -> Forall (fun u => u_ret u = r) us -> Forall (fun u => forallb unconditional_stmt (map denote_stmt (u_body u)) = true) us -> compile_source llvm19 op_fun reg us = Ret Fs -> typed_all [] us.
Proof.
  intros Hp Hr Hc C. unfold compile_source in C. destruct us as [|u us]; [exact Logic.I|]. assert (u_ret u = r) as E by now inversion Hr. rewrite E in C.
  destruct (validate_functions op_fun reg r [] (u :: us)) as [D| | |] eqn:EV; try discriminate C. cbn [obind] in C. eapply all_only; eauto.
Qed.
Lemma function_ret_only fs r ps o t : no_operator_names fs -> pure (denote o) = true -> Forall (fun p => fst p <> TVoid) ps ->
  has_type op_fun fs (known ps) (denote o) = Some t -> t <> TVoid -> pass t r = false -> forall c, validate_function op_fun fs r ps [S_return (Some o)] <> Ret c.
Proof.
  intros Nm Hp Hv T Nt P c E. unfold validate_function in E. assert (novoids (fun _ => None)) as N0 by (intros x; discriminate). pose proof (params_passed ps Hv (fun _ => None) [] (fun _ => eq_refl) N0) as Pp.
  change (validate_params ps ([], [])) with (validate_params ps (@nil (text * vty), @nil (optok * vty))) in E, Pp. destruct (validate_params ps ([], [])) as [[G D]| | |]; try discriminate E. cbn [obind] in E. destruct Pp as (_ & _ & _ & Sm). cbn [fst] in Sm.
  assert (same G (known ps)) as Sk. { intros x. rewrite (Sm x). now destruct (known ps x). }
  pose proof (expr_checked false op_fun fs lib Nm (known ps) (denote o) Hp G D (same_agree _ _ _ Sk)) as H. unfold checked in H. rewrite T in H. destruct H as [(n & D1 & Ev & _) _].
  unfold validate_stmts, validate_list in E. cbn [validate_stmt] in E. rewrite validate_denote in E. rewrite Ev in E. cbn [obind fst] in E.
  assert (cast_ok t r = false) as Q. { destruct t, r; try reflexivity; try discriminate P; now elim Nt. } rewrite Q in E. discriminate E.
Qed.
Lemma later_return u v us o t : Forall plain (u :: [v]) -> u_body v = [S_return (Some o)] -> pure (denote o) = true ->
  has_type op_fun (local_sig [u; v] reg) (known (u_params v)) (denote o) = Some t -> t <> TVoid -> pass t (u_ret u) = false -> forall Fs, compile_source llvm19 op_fun reg (u :: v :: us) <> Ret Fs.
Proof.
  intros Hp Hb Hpu T Nt P Fs C. unfold compile_source in C. cbn [validate_functions] in C. destruct (validate_function op_fun (local_sig ([] ++ [u]) reg) (u_ret u) (u_params u) (u_body u)) as [c| | |]; try discriminate C. cbn [obind existsb app] in C.
  rewrite Hb in C. destruct (validate_function op_fun (local_sig [u; v] reg) (u_ret u) (u_params v) [S_return (Some o)]) as [c2| | |] eqn:E; try discriminate C.
  assert (plain v) as (P1 & _). { inversion Hp as [|? ? _ Hp']; subst. now inversion Hp'. }
  exact (function_ret_only _ (u_ret u) (u_params v) o t (local_names _ Hp) Hpu P1 T Nt P c2 E).
Qed.
End Sources.
