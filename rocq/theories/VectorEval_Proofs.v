From Coq Require Import List Bool Arith ZArith Lia.
Import ListNotations.
From Verif Require Import Base Lexer_Model Op_Model Number_Model Ir_Model Codegen_Model Scalar_Model Scalar_Spec VectorEval_Model VectorEval_Spec.
From Verif Require Scalar_Proofs.
Local Open Scope Z_scope.

Lemma vty_eqb_iff a b : vty_eqb a b = true <-> a = b.
Proof. unfold vty_eqb. destruct (vty_eq_dec a b); split; congruence. Qed.
Lemma vty_refl t : vty_eqb t t = true.
Proof. apply vty_eqb_iff. reflexivity. Qed.
Lemma vty_neq a b : vty_eqb a b = false <-> a <> b.
Proof. rewrite <- vty_eqb_iff. destruct (vty_eqb a b); split; congruence. Qed.
Lemma type_eqb_iff a b : type_eqb a b = true <-> a = b.
Proof.
  unfold type_eqb. rewrite andb_true_iff, eqb_true_iff, vty_eqb_iff. destruct a, b; cbn; split; [intros []|intros [=]]; subst; auto.
Qed.

(** ** Operators *)
Lemma unary_op_ok op t r : check_unary op t = Some r -> operand_count op = Some 1%nat /\ is_compare_op op = false /\ optok_eqb op OP_CONDITIONAL = false /\ r = t.
Proof.
  destruct op; cbn [check_unary]; try discriminate.
  - destruct (num_signed _); [intros [= <-]|discriminate]. repeat split.
  - destruct (vty_eqb _ _); [intros [= <-]|discriminate]. repeat split.
Qed.
Definition binary_op (op : optok) : bool :=
  is_arith op || comparison_op op || optok_eqb op OP_LOGIC_AND || optok_eqb op OP_LOGIC_OR.
Lemma binary_op_ok op : binary_op op = true -> operand_count op = Some 2%nat /\ is_compare_op op = comparison_op op /\ optok_eqb op OP_CONDITIONAL = false.
Proof. destruct op; try discriminate; intros _; repeat split. Qed.
Lemma compare_op_eq op : is_arith op = false -> is_compare_op op = true -> binary_op op = true.
Proof. destruct op; vm_compute; congruence. Qed.
Lemma check_binary_op op l r t : check_binary op l r = Some t -> binary_op op = true.
Proof.
  unfold check_binary. destruct (check_operands l r) as [[l' r']|]; [|discriminate].
  destruct (is_arith op) eqn:A; [intros _; unfold binary_op; rewrite A; reflexivity|].
  destruct (is_compare_op op) eqn:C; [intros _; apply compare_op_eq; auto|].
  destruct (optok_eqb op OP_LOGIC_AND || optok_eqb op OP_LOGIC_OR) eqn:L; [|discriminate].
  intros _. unfold binary_op. rewrite <- orb_assoc, L. apply orb_true_r.
Qed.
Lemma code_leb_rank a b : is_num a = true -> is_num b = true -> code_leb a b = (rank a <=? rank b).
Proof. destruct a as [| |a], b as [| |b]; cbn; try discriminate. intros _ _. destruct a, b; reflexivity. Qed.
Lemma rank_anti a b : is_num a = true -> is_num b = true -> rank a = rank b -> a = b.
Proof. destruct a as [| |a], b as [| |b]; cbn; try discriminate. intros _ _. destruct a, b; cbn; congruence. Qed.

Section E.
Variable lib : optok -> vty -> list val -> option val.
Variable vecs : nat -> vec.
Notation types := (fun j => v_ty (vecs j)).
Notation ty := (etype types).

Lemma counts_vector e : counts_as_vector e = true -> fst (ty e) = true.
Proof.
  induction e as [j|v t|op e IH|op a IHa b IHb|c IHc a IHa b IHb]; cbn; auto; try discriminate.
  - rewrite andb_true_iff, orb_true_iff. intros [_ [?|?]]; rewrite ?IHa, ?IHb by assumption; auto using orb_true_r.
  - rewrite orb_true_iff. intros [?|?]; rewrite ?IHa, ?IHb by assumption; rewrite ?orb_true_r; reflexivity.
Qed.
(** How two operands fit *)
Lemma fits_cases a b : fits types a b = true ->
  (snd (ty a) = meet (ty a) (ty b) /\ snd (ty b) = meet (ty a) (ty b)) \/
  (exists v s, a = EScalar v s /\ s <> meet (ty a) (ty b) /\ number s = true /\ number (meet (ty a) (ty b)) = true /\
               snd (ty b) = meet (ty a) (ty b) /\ counts_as_vector b = true) \/
  (exists v s, b = EScalar v s /\ s <> meet (ty a) (ty b) /\ number s = true /\ number (meet (ty a) (ty b)) = true /\
               snd (ty a) = meet (ty a) (ty b) /\ counts_as_vector a = true).
Proof.
  unfold fits. rewrite orb_true_iff, vty_eqb_iff.
  destruct (vty_eq_dec (snd (ty a)) (snd (ty b))) as [E|E].
  - intros _. left. unfold meet. rewrite <- E. destruct (fst (ty a)), (fst (ty b)); auto; destruct (rank _ <=? _); auto.
  - intros [?|H]; [contradiction|]. rewrite !andb_true_iff in H. destruct H as [[Na Nb] H]. right.
    assert (forall v s, a = EScalar v s -> counts_as_vector b = true ->
      exists v s, a = EScalar v s /\ s <> meet (ty a) (ty b) /\ number s = true /\ number (meet (ty a) (ty b)) = true /\
               snd (ty b) = meet (ty a) (ty b) /\ counts_as_vector b = true) as L.
    { intros v s Ea C. pose proof (counts_vector b C) as V. subst a. unfold meet. cbn [etype fst snd] in *. rewrite V.
      exists v, s. split; [reflexivity|]. split; [exact E|]. auto. }
    destruct a as [ | v s | | | ]; try (left; eapply L; [reflexivity|exact H]);
    (destruct b as [ | w u | | | ]; try discriminate; right; pose proof (counts_vector _ H) as V;
      unfold meet; rewrite V; exists w, u; split; [reflexivity|]; split; [intros D; apply E; rewrite <- D; reflexivity|]; auto).
Qed.
Lemma fits_meet_right l r : snd l = snd r -> meet l r = snd r.
Proof. intros E. unfold meet. rewrite E. destruct (fst l), (fst r); try reflexivity; destruct (rank _ <=? _); reflexivity. Qed.

Lemma check_binary_type op l r t (T : vty) : check_binary op l r = Some t ->
  t = (fst l || fst r, if comparison_op op then TBit else meet l r).
Proof.
  intros H. pose proof (check_binary_op _ _ _ _ H) as B. unfold check_binary in H.
  destruct (check_operands l r) as [[l' r']|] eqn:O; [|discriminate]. unfold check_operands in O.
  destruct (binary_op_ok op B) as (_ & CC & _). rewrite CC in H.
  destruct l as [vl tl], r as [vr tr]; cbn [fst snd] in *.
  destruct (type_eqb (vl, tl) (vr, tr)) eqn:TE.
  - apply type_eqb_iff in TE. injection TE as -> ->. injection O as <- <-. cbn [fst snd] in H. rewrite orb_diag.
    destruct (is_arith op) eqn:A.
    { destruct (is_num tr && is_num tr); [|discriminate]. injection H as <-.
      replace (comparison_op op) with false by (destruct op; try discriminate; reflexivity).
      rewrite fits_meet_right by reflexivity. destruct vr; reflexivity. }
    destruct (comparison_op op) eqn:C.
    { destruct (is_num tr && is_num tr); [|discriminate]. injection H as <-. rewrite orb_diag. reflexivity. }
    destruct (optok_eqb op OP_LOGIC_AND || optok_eqb op OP_LOGIC_OR); [|discriminate].
    rewrite fits_meet_right by reflexivity. cbn [snd].
    destruct vr; cbn [andb orb] in H.
    + rewrite orb_diag in H. destruct (vty_eqb tr TBit) eqn:E; [apply vty_eqb_iff in E; subst; injection H as <-; reflexivity|].
      destruct (type_eqb (true, tr) (false, TBit)) eqn:E'; [apply type_eqb_iff in E'; discriminate|discriminate].
    + destruct (type_eqb (false, tr) (false, TBit)) eqn:E'; [|discriminate]. apply type_eqb_iff in E'. injection E' as ->. cbn in H.
      injection H as <-. reflexivity.
  - destruct (vl || vr) eqn:V.
    + destruct (vl && vr) eqn:VV; [discriminate|]. destruct (is_num tl && is_num tr) eqn:N; [|discriminate].
      injection O as <- <-. cbn [fst snd] in H. rewrite N in H.
      destruct (is_arith op) eqn:A.
      { injection H as <-. replace (comparison_op op) with false by (destruct op; try discriminate; reflexivity).
        unfold meet; cbn. destruct vl, vr; try discriminate; reflexivity. }
      destruct (comparison_op op) eqn:C; [injection H as <-; rewrite V; reflexivity|].
      destruct (optok_eqb op OP_LOGIC_AND || optok_eqb op OP_LOGIC_OR); [|discriminate].
      exfalso. destruct tl, tr; cbn in N; try discriminate. revert H. cbn. rewrite !andb_false_r. cbn.
      unfold type_eqb. cbn. rewrite !andb_false_r. cbn. discriminate.
    + destruct (is_num tl && is_num tr) eqn:N; [|discriminate]. injection O as <- <-. cbn [fst snd] in H.
      apply orb_false_iff in V as [-> ->]. apply andb_true_iff in N as [Nl Nr].
      assert (is_num (if code_leb tl tr then tr else tl) = true) as N by (destruct (code_leb tl tr); assumption).
      rewrite N, Nr in H. cbn [andb orb] in *.
      destruct (is_arith op) eqn:A.
      { injection H as <-. replace (comparison_op op) with false by (destruct op; try discriminate; reflexivity).
        unfold meet; cbn. rewrite code_leb_rank by assumption. reflexivity. }
      destruct (comparison_op op) eqn:C; [injection H as <-; reflexivity|].
      destruct (optok_eqb op OP_LOGIC_AND || optok_eqb op OP_LOGIC_OR); [|discriminate].
      exfalso. destruct tr; try discriminate. revert H. unfold type_eqb. cbn. rewrite !andb_false_r. discriminate.
Qed.
Lemma check_select_type c a b t : check_select (ty c) (ty a) (ty b) = Some t -> fits types a b = true ->
  snd (ty c) = TBit /\ t = (fst (ty c) || fst (ty a) || fst (ty b), meet (ty a) (ty b)).
Proof.
  unfold check_select. intros H F.
  destruct (type_eqb (ty c) (false, TBit)) eqn:C0.
  - apply type_eqb_iff in C0. rewrite C0. split; [reflexivity|]. cbn [fst orb].
    assert (forall x y, type_eqb x y = true -> (fst x || fst y, meet x y) = y /\ (fst x || fst y, meet x y) = x) as EQ.
    { intros x y E. apply type_eqb_iff in E. subst y. rewrite orb_diag, fits_meet_right by reflexivity. destruct x; split; reflexivity. }
    assert (negb (fst (ty a)) && negb (fst (ty b)) = true -> type_eqb (ty a) (ty b) = true) as SC.
    { intros N. apply andb_true_iff in N as [Na Nb]. apply negb_true_iff in Na, Nb.
      destruct (fits_cases a b F) as [[Ea Eb]|[(v & s & -> & _ & _ & _ & _ & C)|(v & s & -> & _ & _ & _ & _ & C)]].
      - apply type_eqb_iff. rewrite (surjective_pairing (ty a)), (surjective_pairing (ty b)). congruence.
      - apply counts_vector in C. congruence.
      - apply counts_vector in C. congruence. }
    destruct (type_eqb (ty a) (ty b) || _) eqn:K1 in H.
    + injection H as <-. apply orb_true_iff in K1 as [K1|K1].
      * symmetry. apply (EQ _ _ K1).
      * rewrite <- !andb_assoc in K1. symmetry. apply EQ, SC. apply andb_true_iff in K1 as [K1 K2]. apply andb_true_iff in K2 as [K2 _]. rewrite K1, K2. reflexivity.
    + destruct (type_eqb (ty b) (ty a) || _) eqn:K2 in H; [|discriminate]. injection H as <-.
      apply orb_true_iff in K2 as [K2|K2].
      * apply type_eqb_iff in K2. symmetry. apply EQ. apply type_eqb_iff. auto.
      * rewrite <- !andb_assoc in K2. apply andb_true_iff in K2 as [K2 K3]. apply andb_true_iff in K3 as [K3 _].
        symmetry. apply EQ, SC. rewrite K2, K3. reflexivity.
  - destruct (type_eqb (ty c) (true, TBit)) eqn:C1; [|discriminate]. apply type_eqb_iff in C1. rewrite C1. split; [reflexivity|].
    cbn [fst orb]. destruct (fst (ty a)) eqn:Va, (fst (ty b)) eqn:Vb.
    + destruct (vty_eqb _ _) eqn:E; [|discriminate]. injection H as <-. unfold meet. rewrite Va.
      rewrite (surjective_pairing (ty a)), Va. reflexivity.
    + destruct (can_cast _ _); [|discriminate]. injection H as <-. unfold meet. rewrite Va. rewrite (surjective_pairing (ty a)), Va. reflexivity.
    + destruct (can_cast _ _); [|discriminate]. injection H as <-. unfold meet. rewrite Va, Vb. rewrite (surjective_pairing (ty b)), Vb. reflexivity.
    + destruct (is_num _ && is_num _) eqn:N; [|discriminate]. injection H as <-. unfold meet. rewrite Va, Vb.
      destruct (fits_cases a b F) as [[Ea Eb]|[(v & s & -> & _ & _ & _ & _ & C)|(v & s & -> & _ & _ & _ & _ & C)]].
      * assert (snd (ty a) = snd (ty b)) as -> by congruence. destruct (code_leb _ _); destruct (rank _ <=? _); reflexivity.
      * apply counts_vector in C. congruence.
      * apply counts_vector in C. congruence.
Qed.
Lemma validate_type e : forall t, validate vecs e = Some t -> plain types e = true -> t = ty e.
Proof.
  induction e as [j|v s|op e IH|op a IHa b IHb|c IHc a IHa b IHb]; cbn [validate plain etype]; intros t V P.
  - congruence.
  - congruence.
  - destruct (validate vecs e) as [x|]; [|discriminate]. apply unary_op_ok in V as (_ & _ & _ & ->). auto.
  - destruct (validate vecs a) as [x|]; [|discriminate]. destruct (validate vecs b) as [y|]; [|discriminate].
    rewrite !andb_true_iff in P. destruct P as [[Pa Pb] F]. apply check_binary_type in V; [|exact TBit].
    rewrite (IHa x eq_refl Pa), (IHb y eq_refl Pb) in V. exact V.
  - destruct (validate vecs c) as [z|]; [|discriminate]. destruct (validate vecs a) as [x|]; [|discriminate].
    destruct (validate vecs b) as [y|]; [|discriminate].
    rewrite !andb_true_iff in P. destruct P as [[[Pc Pa] Pb] F].
    rewrite (IHa x eq_refl Pa), (IHb y eq_refl Pb), (IHc z eq_refl Pc) in V. apply check_select_type in V; tauto.
Qed.

(** ** Compilation *)
Definition as_type (t : vty) (e : vexpr) (l : list cnode) : list cnode :=
  match e with EScalar v s => [C_scalar v s (if vty_eqb s t then [] else [t])] | _ => l end.
Fixpoint cemit (e : vexpr) : list cnode :=
  match e with
  | EVec j => [C_vec j]
  | EScalar v t => [C_scalar v t []]
  | EUn op e => cemit e ++ [C_op op (snd (ty e))]
  | EBin op a b => let t := meet (ty a) (ty b) in as_type t a (cemit a) ++ as_type t b (cemit b) ++ [C_op op t]
  | ESel c a b => let t := meet (ty a) (ty b) in cemit c ++ as_type t a (cemit a) ++ as_type t b (cemit b) ++ [C_op OP_CONDITIONAL t]
  end.
Lemma as_type_same t e : snd (ty e) = t -> as_type t e (cemit e) = cemit e.
Proof. intros <-. destruct e; try reflexivity. cbn. rewrite vty_refl. reflexivity. Qed.
Lemma compile_app l1 l2 st : compile_nodes vecs (l1 ++ l2) st = (do! st <- compile_nodes vecs l1 st; compile_nodes vecs l2 st).
Proof.
  revert st. induction l1 as [|n l1 IH]; intros st; cbn [app compile_nodes]; [reflexivity|].
  destruct (compile_node vecs n st); cbn [obind]; auto.
Qed.
Lemma nth_middle {A} (l1 : list A) x l2 : nth_error (l1 ++ x :: l2) (length l1) = Some x.
Proof. rewrite nth_error_app2 by lia. rewrite Nat.sub_diag. reflexivity. Qed.
Lemma cast_leaf t ns v s rest : number s = true -> number t = true -> s <> t ->
  cast_nodes t [length ns] (ns ++ C_scalar v s [] :: rest) = Ret (ns ++ C_scalar v s [t] :: rest).
Proof.
  intros Ns Nt D. cbn [cast_nodes]. rewrite nth_middle. cbn [cast_node last]. rewrite (proj2 (vty_neq s t)) by exact D.
  destruct s as [| |s], t as [| |t]; try discriminate. cbn [can_cast is_num andb obind cast_nodes app].
  rewrite firstn_app, Nat.sub_diag, firstn_all. cbn [firstn]. rewrite app_nil_r.
  rewrite skipn_app. rewrite (skipn_all2 ns) by lia. replace (S (length ns) - length ns)%nat with 1%nat by lia. reflexivity.
Qed.
Definition pair_ok (a b : vexpr) (ns : list cnode) (ia ib : list nat) : Prop :=
  let A := Operand (counts_as_vector a) (snd (ty a)) ia in
  let B := Operand (counts_as_vector b) (snd (ty b)) ib in
  let t := meet (ty a) (ty b) in
  compute_type [A; B] = Ret (t, counts_as_vector a || counts_as_vector b) /\
  cast_operands t [A; B] (ns ++ cemit a ++ cemit b) = Ret (ns ++ as_type t a (cemit a) ++ as_type t b (cemit b)).
Lemma operands_ok a b ns ia ib : fits types a b = true ->
  (forall v s, a = EScalar v s -> ia = [length ns]) -> (forall v s, b = EScalar v s -> ib = [length (ns ++ cemit a)]) ->
  pair_ok a b ns ia ib.
Proof.
  intros F La Lb. unfold pair_ok. cbv zeta.
  destruct (fits_cases a b F) as [[Ea Eb]|[(v & s & -> & D & Ns & Nt & Eb & C)|(v & s & -> & D & Ns & Nt & Ea & C)]].
  - split.
    + unfold compute_type. cbn [find o_vec]. destruct (counts_as_vector a) eqn:Ca; [rewrite <- Ea; reflexivity|].
      destruct (counts_as_vector b); cbn [o_ty]; [rewrite Eb at 1|rewrite Ea at 1]; reflexivity.
    + cbn [cast_operands o_ty obind o_idxs]. rewrite Ea at 1. rewrite vty_refl. cbn [obind]. rewrite Eb at 1. rewrite vty_refl. cbn [obind].
      rewrite !as_type_same by congruence. reflexivity.
  - set (t := meet (ty (EScalar v s)) (ty b)) in *. split.
    + unfold compute_type. cbn [find o_vec counts_as_vector]. rewrite C. cbn [o_ty]. rewrite Eb. reflexivity.
    + cbn [cast_operands o_ty obind o_idxs]. cbn [etype snd]. rewrite (proj2 (vty_neq s t)) by exact D.
      rewrite (La v s eq_refl). cbn [cemit app].
      rewrite (cast_leaf t ns v s (cemit b) Ns Nt D). cbn [obind]. rewrite Eb at 1. rewrite vty_refl. cbn [obind].
      rewrite (as_type_same t b Eb). cbn [as_type]. rewrite (proj2 (vty_neq s t)) by exact D. reflexivity.
  - set (t := meet (ty a) (ty (EScalar v s))) in *. split.
    + unfold compute_type. cbn [find o_vec]. rewrite C. cbn [o_ty counts_as_vector]. rewrite Ea. reflexivity.
    + cbn [cast_operands o_ty obind o_idxs]. rewrite Ea at 1. rewrite vty_refl. cbn [obind etype snd].
      rewrite (proj2 (vty_neq s t)) by exact D. rewrite (Lb v s eq_refl). cbn [cemit]. rewrite (app_assoc ns (cemit a)).
      rewrite (cast_leaf t (ns ++ cemit a) v s [] Ns Nt D). cbn [obind]. rewrite (as_type_same t a Ea).
      cbn [as_type]. rewrite (proj2 (vty_neq s t)) by exact D. rewrite <- app_assoc. reflexivity.
Qed.
Lemma compile_ok e : forall t ns stack, validate vecs e = Some t -> plain types e = true ->
  exists idxs, compile_nodes vecs (vemit e) (ns, stack) = Ret (ns ++ cemit e, Operand (counts_as_vector e) (snd (ty e)) idxs :: stack) /\
    forall v s, e = EScalar v s -> idxs = [length ns].
Proof.
  induction e as [j|v s|op e IH|op a IHa b IHb|c IHc a IHa b IHb]; intros t ns stack V P.
  - exists [length ns]. split; [reflexivity|discriminate].
  - exists [length ns]. split; [reflexivity|auto].
  - cbn [validate plain] in V, P. destruct (validate vecs e) as [x|] eqn:Ve; [|discriminate].
    destruct (unary_op_ok _ _ _ V) as (K & C & NC & ->).
    destruct (IH x ns stack eq_refl P) as (idxs & E & _). exists (flat_map o_idxs [Operand (counts_as_vector e) (snd (ty e)) idxs]).
    split; [|discriminate]. cbn [vemit]. rewrite compile_app, E. cbn [obind compile_nodes compile_node]. rewrite K, NC.
    rewrite (proj2 (Nat.ltb_ge _ _)) by (cbn; lia). cbn [firstn rev app].
    assert (compute_type [Operand (counts_as_vector e) (snd (ty e)) idxs] = Ret (snd (ty e), counts_as_vector e)) as -> by (unfold compute_type; cbn; destruct (counts_as_vector e); reflexivity).
    cbn [obind cast_operands o_ty]. rewrite vty_refl. cbn [obind]. rewrite C. cbn [cemit counts_as_vector etype skipn].
    rewrite app_assoc. reflexivity.
  - cbn [validate plain] in V, P. destruct (validate vecs a) as [x|] eqn:Va; [|discriminate]. destruct (validate vecs b) as [y|] eqn:Vb; [|discriminate].
    rewrite !andb_true_iff in P. destruct P as [[Pa Pb] F].
    destruct (binary_op_ok op (check_binary_op _ _ _ _ V)) as (K & C & NC).
    destruct (IHa x ns stack eq_refl Pa) as (ia & Ea & La).
    destruct (IHb y (ns ++ cemit a) (Operand (counts_as_vector a) (snd (ty a)) ia :: stack) eq_refl Pb) as (ib & Eb & Lb).
    destruct (operands_ok a b ns ia ib F La Lb) as [CT CO].
    eexists. split; [|discriminate]. cbn [vemit]. rewrite !compile_app, Ea. cbn [obind]. rewrite compile_app, Eb. cbn [obind compile_nodes compile_node].
    rewrite K, NC. rewrite (proj2 (Nat.ltb_ge _ _)) by (cbn; lia). cbn [firstn rev app]. rewrite CT. cbn [obind]. rewrite <- app_assoc, CO.
    cbn [obind]. rewrite C. cbn [cemit counts_as_vector etype skipn snd]. rewrite <- !app_assoc.
    destruct (comparison_op op); cbn [negb andb]; reflexivity.
  - cbn [validate plain] in V, P. destruct (validate vecs c) as [z|] eqn:Vc; [|discriminate]. destruct (validate vecs a) as [x|] eqn:Va; [|discriminate].
    destruct (validate vecs b) as [y|] eqn:Vb; [|discriminate].
    rewrite !andb_true_iff in P. destruct P as [[[Pc Pa] Pb] F].
    destruct (IHc z ns stack eq_refl Pc) as (ic & Ec & _).
    destruct (IHa x (ns ++ cemit c) (Operand (counts_as_vector c) (snd (ty c)) ic :: stack) eq_refl Pa) as (ia & Ea & La).
    destruct (IHb y ((ns ++ cemit c) ++ cemit a) (Operand (counts_as_vector a) (snd (ty a)) ia :: Operand (counts_as_vector c) (snd (ty c)) ic :: stack) eq_refl Pb) as (ib & Eb & Lb).
    destruct (operands_ok a b (ns ++ cemit c) ia ib F La Lb) as [CT CO].
    eexists. split; [|discriminate]. cbn [vemit]. rewrite !compile_app, Ec. cbn [obind]. rewrite compile_app, Ea. cbn [obind]. rewrite compile_app, Eb.
    cbn [obind compile_nodes compile_node].
    change (operand_count OP_CONDITIONAL) with (Some 3%nat). change (optok_eqb OP_CONDITIONAL OP_CONDITIONAL) with true. cbv iota.
    rewrite (proj2 (Nat.ltb_ge _ _)) by (cbn; lia). cbn [firstn rev app]. rewrite CT. cbn [obind]. rewrite <- (app_assoc _ (cemit a)), CO.
    cbn [obind]. change (is_compare_op OP_CONDITIONAL) with false. cbv iota. cbn [cemit counts_as_vector etype skipn snd]. rewrite <- !app_assoc. reflexivity.
Qed.

(** ** One block *)
Lemma all_some_seq {A} (f : nat -> option A) n : forall k, (forall i, (i < n)%nat -> f (k + i)%nat <> None) ->
  exists l, all_some (map f (seq k n)) = Some l /\ length l = n /\ forall i, (i < n)%nat -> nth_error l i = f (k + i)%nat.
Proof.
  induction n as [|n IH]; intros k H; cbn [seq map all_some].
  - exists []. repeat split. intros; lia.
  - destruct (IH (S k)) as (l & -> & L & N); [intros i Hi; replace (S k + i)%nat with (k + S i)%nat by lia; apply H; lia|].
    pose proof (H 0%nat ltac:(lia)) as H0. rewrite Nat.add_0_r in H0. destruct (f k) as [x|] eqn:E; [|contradiction].
    exists (x :: l). split; [reflexivity|]. split; [cbn; lia|]. intros [|i] Hi; cbn [nth_error].
    + rewrite Nat.add_0_r. auto.
    + replace (k + S i)%nat with (S k + i)%nat by lia. apply N. lia.
Qed.
Lemma eval_app c left_n l1 l2 st : eval_vnodes lib vecs c left_n (l1 ++ l2) st = (do! st <- eval_vnodes lib vecs c left_n l1 st; eval_vnodes lib vecs c left_n l2 st).
Proof.
  revert st. induction l1 as [|n l1 IH]; intros st; cbn [app eval_vnodes]; [reflexivity|].
  destruct (eval_vnode lib vecs c left_n n st); cbn [obind]; auto.
Qed.
Lemma fill_one t : fill t = one t.
Proof. destruct t as [| |[]]; reflexivity. Qed.

(** [l] has the values [f k] in its lanes. *)
Definition has (l : list val) (f : nat -> option val) : Prop := length l = lanes /\ forall k, (k < lanes)%nat -> nth_error l k = f k.
Lemma results_ok op t args f (fs : list (nat -> option val)) :
  Forall2 has args fs ->
  (forall k, (k < lanes)%nat -> f k <> None /\ match all_some (map (fun g => g k) fs) with Some vs => oper lib op t vs | None => None end = f k) ->
  exists l, results lib op t t args = Ret l /\ has l f.
Proof.
  intros H R. unfold results.
  set (g := fun i => match all_some (map (fun l => nth_error l i) args) with Some vs => lane_op lib op t t vs | None => None end).
  assert (forall k, (k < lanes)%nat -> g k = f k) as G.
  { intros k Hk. destruct (R k Hk) as [_ <-]. unfold g.
    replace (map (fun l => nth_error l k) args) with (map (fun g => g k) fs).
    - destruct (all_some _); [|reflexivity]. unfold lane_op. rewrite vty_refl. reflexivity.
    - clear R g. induction H as [|l h args fs [_ N] _ IH]; [reflexivity|]. cbn [map]. rewrite IH, N by exact Hk. reflexivity. }
  destruct (all_some_seq g lanes 0) as (l & -> & L & N).
  { intros k Hk. cbn. rewrite G by exact Hk. apply R, Hk. }
  exists l. split; [reflexivity|]. split; [exact L|]. intros k Hk. rewrite N by exact Hk. apply G, Hk.
Qed.

Section Block.
Variables (c n : Z) (left_n : option Z).
Hypothesis Hc : 0 <= c.
Hypothesis Hb : (left_n = None /\ c + 64 <= n) \/ left_n = Some (n - c).
Notation lane k := (in_lane vecs (Z.to_nat c + k)).

Lemma load_ok j : v_size (vecs j) = n -> (forall k, (k < lanes)%nat -> lane k j <> None) ->
  exists l, match left_n with None => load_vector (vecs j) c | Some n => load_n_vector (vecs j) c n end = Ret l /\ has l (fun k => lane k j).
Proof.
  intros S D.
  assert (forall f, (forall k, (k < lanes)%nat -> f k = lane k j) -> exists l, or_ub (all_some (map f (seq 0 lanes))) = Ret l /\ has l (fun k => lane k j)) as G.
  { intros f E. destruct (all_some_seq f lanes 0) as (l & -> & L & N); [intros k Hk; cbn; rewrite E by exact Hk; apply D, Hk|].
    exists l. split; [reflexivity|]. split; [exact L|]. intros k Hk. rewrite N by exact Hk. apply E, Hk. }
  destruct Hb as [[-> B]| ->].
  - apply G. intros k Hk. unfold in_lane. rewrite S. rewrite (proj2 (Z.ltb_lt _ _)) by (unfold lanes in Hk; lia). reflexivity.
  - unfold load_n_vector.
    assert (v_ty (vecs j) = TBit -> exists l, load_vector (vecs j) c = Ret l /\ has l (fun k => lane k j)) as LB.
    { intros E. apply G. intros k Hk. unfold in_lane. rewrite E. rewrite (vty_refl TBit), orb_true_r. reflexivity. }
    assert (v_ty (vecs j) <> TBit -> exists l, or_ub (all_some (map (fun i => if Z.of_nat i <? n - c then nth_error (v_mem (vecs j)) (Z.to_nat c + i) else fill (v_ty (vecs j))) (seq 0 lanes))) = Ret l /\ has l (fun k => lane k j)) as LN.
    { intros E. apply G. intros k Hk. unfold in_lane. rewrite S. rewrite (proj2 (vty_neq _ _) E), orb_false_r.
      rewrite fill_one. destruct (Z.ltb_spec (Z.of_nat k) (n - c)), (Z.ltb_spec (Z.of_nat (Z.to_nat c + k)) n); try lia; reflexivity. }
    destruct (v_ty (vecs j)) eqn:E; [apply LN; discriminate|apply LB; reflexivity|apply LN; discriminate].
Qed.
Lemma eval_as t e l stack : (snd (ty e) = t \/ exists v s, e = EScalar v s /\ s <> t) ->
  (forall k, (k < lanes)%nat -> converted (snd (ty e)) t (value lib types (lane k) e) <> None) ->
  eval_vnodes lib vecs c left_n (cemit e) stack = Ret ((snd (ty e), l) :: stack) -> has l (fun k => value lib types (lane k) e) ->
  exists l', eval_vnodes lib vecs c left_n (as_type t e (cemit e)) stack = Ret ((t, l') :: stack) /\
             has l' (fun k => converted (snd (ty e)) t (value lib types (lane k) e)).
Proof.
  intros [<-|(v & s & -> & D)] Dc E H.
  - rewrite as_type_same by reflexivity. exists l. split; [exact E|]. unfold converted. rewrite vty_refl. exact H.
  - cbn [as_type etype snd]. rewrite (proj2 (vty_neq s t) D). specialize (Dc 0%nat ltac:(unfold lanes; lia)).
    cbn [value etype snd] in Dc |- *. unfold converted in *. rewrite (proj2 (vty_neq s t) D) in *.
    cbn [eval_vnodes eval_vnode run_casts]. destruct (cast s t v) as [w|] eqn:K; [|contradiction]. cbn [obind].
    exists (repeat w lanes). split; [reflexivity|]. split; [apply repeat_length|]. intros k Hk. apply nth_error_repeat, Hk.
Qed.
Lemma fits_as a b : fits types a b = true ->
  (snd (ty a) = meet (ty a) (ty b) \/ exists v s, a = EScalar v s /\ s <> meet (ty a) (ty b)) /\
  (snd (ty b) = meet (ty a) (ty b) \/ exists v s, b = EScalar v s /\ s <> meet (ty a) (ty b)).
Proof.
  intros F. destruct (fits_cases a b F) as [[Ea Eb]|[(v & s & E & D & _ & _ & Eb & _)|(v & s & E & D & _ & _ & Ea & _)]]; eauto 8.
Qed.
Lemma slot_ok op t : ty_width (snd (if is_compare_op op then (TBit, TBit) else (t, t))) <? ty_width (fst (if is_compare_op op then (TBit, TBit) else (t, t))) = false.
Proof. destruct (is_compare_op op); apply Z.ltb_irrefl. Qed.
Lemma eval_ok e : forall t stack, validate vecs e = Some t -> plain types e = true ->
  (forall j, In j (vectors_of e) -> v_size (vecs j) = n) ->
  (forall k, (k < lanes)%nat -> defined lib types (lane k) e) ->
  exists l, eval_vnodes lib vecs c left_n (cemit e) stack = Ret ((snd (ty e), l) :: stack) /\ has l (fun k => value lib types (lane k) e).
Proof.
  induction e as [j|v s|op e IH|op a IHa b IHb|d IHd a IHa b IHb]; intros t stack V P S D.
  - destruct (load_ok j) as (l & E & H); [apply S; left; reflexivity|intros k Hk; apply (D k Hk)|].
    exists l. split; [|exact H]. cbn [cemit eval_vnodes eval_vnode]. rewrite E. reflexivity.
  - exists (repeat v lanes). split; [reflexivity|]. split; [apply repeat_length|]. intros k Hk. apply nth_error_repeat, Hk.
  - cbn [validate plain vectors_of] in V, P, S. destruct (validate vecs e) as [x|] eqn:Ve; [|discriminate].
    destruct (unary_op_ok _ _ _ V) as (K & C & NC & ->).
    destruct (IH x stack eq_refl P S) as (l & E & H); [intros k Hk; apply (D k Hk)|].
    cbn [cemit]. rewrite eval_app, E. cbn [obind eval_vnodes eval_vnode]. rewrite K. cbn [obind].
    destruct (results_ok op (snd (ty e)) [l] (fun k => value lib types (lane k) (EUn op e)) [fun k => value lib types (lane k) e]) as (r & -> & R).
    { constructor; [exact H|constructor]. }
    { intros k Hk. split; [apply (D k Hk)|]. cbn [map all_some value]. destruct (value lib types (lane k) e); reflexivity. }
    cbn [obind]. rewrite C. rewrite Z.ltb_irrefl. cbn [obind]. exists r. split; [reflexivity|exact R].
  - cbn [validate plain vectors_of] in V, P, S. destruct (validate vecs a) as [x|] eqn:Va; [|discriminate]. destruct (validate vecs b) as [y|] eqn:Vb; [|discriminate].
    rewrite !andb_true_iff in P. destruct P as [[Pa Pb] F].
    destruct (binary_op_ok op (check_binary_op _ _ _ _ V)) as (K & C & NC).
    destruct (fits_as a b F) as [Fa Fb]. set (T := meet (ty a) (ty b)) in *.
    destruct (IHa x stack eq_refl Pa) as (la & Ea & Ha); [intros j Hj; apply S, in_or_app; auto|intros k Hk; apply (D k Hk)|].
    destruct (eval_as T a la stack Fa) as (la' & Ea' & Ha'); [intros k Hk; apply (D k Hk)|exact Ea|exact Ha|].
    destruct (IHb y ((T, la') :: stack) eq_refl Pb) as (lb & Eb & Hb'); [intros j Hj; apply S, in_or_app; auto|intros k Hk; apply (D k Hk)|].
    destruct (eval_as T b lb ((T, la') :: stack) Fb) as (lb' & Eb' & Hb''); [intros k Hk; apply (D k Hk)|exact Eb|exact Hb'|].
    cbn [cemit]. fold T. rewrite eval_app, Ea'. cbn [obind]. rewrite eval_app, Eb'. cbn [obind eval_vnodes eval_vnode]. rewrite K, vty_refl. cbn [obind].
    destruct (results_ok op T [la'; lb'] (fun k => value lib types (lane k) (EBin op a b))
      [fun k => converted (snd (ty a)) T (value lib types (lane k) a); fun k => converted (snd (ty b)) T (value lib types (lane k) b)]) as (r & -> & R).
    { constructor; [exact Ha'|]. constructor; [exact Hb''|constructor]. }
    { intros k Hk. split; [apply (D k Hk)|]. cbn [map all_some value]. fold T.
      destruct (converted (snd (ty a)) T _); [|reflexivity]. destruct (converted (snd (ty b)) T _); reflexivity. }
    cbn [obind etype snd]. rewrite C. fold T.
    destruct (comparison_op op); rewrite Z.ltb_irrefl; cbn [obind]; exists r; (split; [reflexivity|exact R]).
  - cbn [validate plain vectors_of] in V, P, S. destruct (validate vecs d) as [z|] eqn:Vd; [|discriminate].
    destruct (validate vecs a) as [x|] eqn:Va; [|discriminate]. destruct (validate vecs b) as [y|] eqn:Vb; [|discriminate].
    rewrite !andb_true_iff in P. destruct P as [[[Pd Pa] Pb] F].
    destruct (fits_as a b F) as [Fa Fb].
    assert (snd (ty d) = TBit) as TD.
    { rewrite (validate_type d z Vd Pd), (validate_type a x Va Pa), (validate_type b y Vb Pb) in V. apply check_select_type in V; tauto. }
    set (T := meet (ty a) (ty b)) in *.
    destruct (IHd z stack eq_refl Pd) as (ld & Ed & Hd); [intros j Hj; apply S, in_or_app; auto|intros k Hk; apply (D k Hk)|]. rewrite TD in Ed.
    destruct (IHa x ((TBit, ld) :: stack) eq_refl Pa) as (la & Ea & Ha); [intros j Hj; apply S, in_or_app; right; apply in_or_app; auto|intros k Hk; apply (D k Hk)|].
    destruct (eval_as T a la ((TBit, ld) :: stack) Fa) as (la' & Ea' & Ha'); [intros k Hk; apply (D k Hk)|exact Ea|exact Ha|].
    destruct (IHb y ((T, la') :: (TBit, ld) :: stack) eq_refl Pb) as (lb & Eb & Hb'); [intros j Hj; apply S, in_or_app; right; apply in_or_app; auto|intros k Hk; apply (D k Hk)|].
    destruct (eval_as T b lb ((T, la') :: (TBit, ld) :: stack) Fb) as (lb' & Eb' & Hb''); [intros k Hk; apply (D k Hk)|exact Eb|exact Hb'|].
    cbn [cemit]. fold T. rewrite eval_app, Ed. cbn [obind]. rewrite eval_app, Ea'. cbn [obind]. rewrite eval_app, Eb'. cbn [obind eval_vnodes eval_vnode].
    change (operand_count OP_CONDITIONAL) with (Some 3%nat). change (optok_eqb OP_CONDITIONAL OP_CONDITIONAL) with true. cbv iota. rewrite !vty_refl. cbn [andb obind].
    destruct (results_ok OP_CONDITIONAL T [ld; la'; lb'] (fun k => value lib types (lane k) (ESel d a b))
      [fun k => value lib types (lane k) d; fun k => converted (snd (ty a)) T (value lib types (lane k) a); fun k => converted (snd (ty b)) T (value lib types (lane k) b)]) as (r & -> & R).
    { constructor; [exact Hd|]. constructor; [exact Ha'|]. constructor; [exact Hb''|constructor]. }
    { intros k Hk. pose proof (D k Hk) as DK. split; [apply DK|]. cbn [defined] in DK. destruct DK as (D0 & Dd & _ & _ & Ca & Cb). fold T in Ca, Cb.
      cbn [value] in D0. cbn [map all_some value]. fold T in D0 |- *.
      destruct (value lib types (lane k) d) as [[z'|f]|]; try contradiction.
      destruct (converted (snd (ty a)) T _); [|contradiction]. destruct (converted (snd (ty b)) T _); [|contradiction].
      cbn [oper]. change (optok_eqb OP_CONDITIONAL OP_CONDITIONAL) with true. cbv iota. destruct v; destruct v0; destruct (z' =? 1); reflexivity. }
    cbn [obind etype snd]. change (is_compare_op OP_CONDITIONAL) with false. cbv iota. fold T. rewrite Z.ltb_irrefl. cbn [obind]. exists r. split; [reflexivity|exact R].
Qed.
End Block.

(** ** The loop *)
Variables (e : vexpr) (t : vty) (n : Z).
Hypothesis He : validate vecs e = Some (true, t).
Hypothesis Hp : plain types e = true.
Hypothesis Ht : element_type t = true.
Hypothesis Hs : forall j, In j (vectors_of e) -> v_size (vecs j) = n.
Hypothesis Hn : 0 <= n < 2 ^ 30.
Hypothesis Hbytes : bytes_of t n + 7 < 2 ^ 32.
Hypothesis Hd : forall i, Z.of_nat i < in_units n -> defined lib types (in_lane vecs i) e.
Notation lane_value i := (value lib types (in_lane vecs i) e).

Lemma type_cases : t = TBit \/ exists w, t = TNum w.
Proof. destruct t; [discriminate|auto|eauto]. Qed.
Lemma type_is : ty e = (true, t).
Proof. symmetry. apply validate_type; assumption. Qed.
Lemma lane_value_some i : Z.of_nat i < in_units n -> lane_value i <> None.
Proof. intros H. apply Hd in H. destruct e; apply H. Qed.
(** Written up to [c] *)
Definition filled (mem : list (option val)) (c : Z) : Prop :=
  Z.of_nat (length mem) = new_capacity t n /\
  (forall i, Z.of_nat i < c -> nth_error mem i = Some (lane_value i)) /\
  (forall i, c <= Z.of_nat i < new_capacity t n -> nth_error mem i = Some None).

Lemma units_le m : m <= in_units m < m + 64.
Proof. unfold in_units. pose proof (Z.div_mod (m + 63) 64 ltac:(lia)). pose proof (Z.mod_pos_bound (m + 63) 64 ltac:(lia)). lia. Qed.
Lemma align_le m : m <= align_8 m < m + 8.
Proof. unfold align_8. pose proof (Z.div_mod (m + 7) 8 ltac:(lia)). pose proof (Z.mod_pos_bound (m + 7) 8 ltac:(lia)). lia. Qed.
Lemma wrapu_32 m : 0 <= m < 2 ^ 32 -> wrapu 32 m = m.
Proof. apply Z.mod_small. Qed.
Lemma capacity_number w : t = TNum w -> n <= new_capacity t n.
Proof.
  intros E. rewrite E in *. cbn [bytes_of] in Hbytes. unfold new_capacity. cbn [ty_width].
  assert (0 < ty_bits w / 8) as W by (destruct w; vm_compute; reflexivity).
  pose proof (align_le (ty_bits w / 8 * n)) as A. rewrite (wrapu_32 (ty_bits w / 8 * n)) by nia. rewrite (wrapu_32 (align_8 _)) by nia.
  apply Z.div_le_lower_bound; lia.
Qed.
Lemma capacity_bits : t = TBit -> new_capacity t n = in_units n.
Proof.
  intros E. rewrite E in *. unfold new_capacity.
  assert (n / 8 + (if n mod 8 =? 0 then 0 else 1) = (n + 7) / 8) as ->.
  { pose proof (Z.div_mod n 8 ltac:(lia)). pose proof (Z.mod_pos_bound n 8 ltac:(lia)).
    pose proof (Z.div_mod (n + 7) 8 ltac:(lia)). pose proof (Z.mod_pos_bound (n + 7) 8 ltac:(lia)). destruct (Z.eqb_spec (n mod 8) 0); lia. }
  change (2 ^ 30) with 1073741824 in Hn.
  assert (0 <= (n + 7) / 8 < 2 ^ 28) as B by (split; [apply Z.div_pos|apply Z.div_lt_upper_bound]; lia).
  change (2 ^ 28) with 268435456 in B.
  rewrite (wrapu_32 ((n + 7) / 8)) by (change (2 ^ 32) with 4294967296; lia).
  pose proof (align_le ((n + 7) / 8)). rewrite (wrapu_32 (align_8 _)) by (change (2 ^ 32) with 4294967296; lia).
  unfold align_8, in_units.
  assert (((n + 7) / 8 + 7) / 8 = (n + 63) / 64) as ->; [|lia].
  replace ((n + 7) / 8 + 7) with ((n + 63) / 8); [rewrite Z.div_div by lia; reflexivity|].
  replace (n + 63) with (n + 7 + 7 * 8) by lia. rewrite Z.div_add by lia. reflexivity.
Qed.
Lemma nth_write mem i k l mem' : write_at i k l mem = Ret mem' ->
  length mem' = length mem /\ forall x, nth_error mem' x = if Nat.leb i x && Nat.ltb x (i + k) then match nth_error l (x - i) with Some v => Some (Some v) | None => None end else nth_error mem x.
Proof.
  unfold write_at. destruct (Nat.leb (i + k) (length mem) && Nat.leb k (length l)) eqn:C; [|discriminate]. intros [= <-].
  apply andb_true_iff in C as [C1 C2]. apply Nat.leb_le in C1, C2.
  assert (length (firstn i mem) = i) as L1 by (rewrite firstn_length; lia).
  assert (length (map (@Some val) (firstn k l)) = k) as L2 by (rewrite map_length, firstn_length; lia).
  split.
  - rewrite !app_length, L1, L2, skipn_length. lia.
  - intros x. destruct (Nat.leb_spec i x); cbn [andb].
    + rewrite nth_error_app2 by lia. rewrite L1. destruct (Nat.ltb_spec x (i + k)).
      * rewrite nth_error_app1 by lia. rewrite nth_error_map.
        assert (nth_error (firstn k l) (x - i) = nth_error l (x - i)) as ->.
        { rewrite <- (firstn_skipn k l) at 2. rewrite nth_error_app1; [reflexivity|]. rewrite firstn_length. lia. }
        destruct (nth_error l (x - i)); reflexivity.
      * rewrite nth_error_app2 by lia. rewrite L2.
        rewrite <- (firstn_skipn (i + k) mem) at 2. rewrite (nth_error_app2 (firstn (i + k) mem)) by (rewrite firstn_length; lia).
        rewrite firstn_length. f_equal. lia.
    + rewrite nth_error_app1 by lia. rewrite <- (firstn_skipn i mem) at 2. rewrite nth_error_app1 by lia. reflexivity.
Qed.
(** One block, [k] elements of which are stored *)
Lemma store_ok mem c k l left_n : filled mem c -> 0 <= c -> (k <= lanes)%nat -> c + Z.of_nat k <= new_capacity t n -> c + 64 <= in_units n ->
  has l (fun k => lane_value (Z.to_nat c + k)) ->
  (match left_n, t with Some m, TNum _ => Z.to_nat m | _, _ => lanes end = k) ->
  exists mem', store_vector t c left_n (t, l) mem = Ret mem' /\ filled mem' (c + Z.of_nat k).
Proof.
  intros (L & F & R) C0 Kl Cap U [Ll Hl] Hk.
  assert (store_vector t c left_n (t, l) mem = write_at (Z.to_nat c) k l mem) as ->.
  { unfold store_vector. cbn [fst snd]. rewrite vty_refl. rewrite <- Hk. destruct left_n, t; reflexivity. }
  destruct (write_at (Z.to_nat c) k l mem) as [mem'| | |] eqn:W; try (exfalso; revert W; unfold write_at;
    rewrite (proj2 (Nat.leb_le _ _)) by lia; rewrite (proj2 (Nat.leb_le _ _)) by lia; discriminate).
  exists mem'. split; [reflexivity|]. destruct (nth_write _ _ _ _ _ W) as [L' N']. split; [lia|]. split.
  - intros i Hi. rewrite N'. destruct (Nat.leb_spec (Z.to_nat c) i); cbn [andb].
    + rewrite (proj2 (Nat.ltb_lt _ _)) by lia. rewrite Hl by lia. replace (Z.to_nat c + (i - Z.to_nat c))%nat with i by lia.
      pose proof (lane_value_some i ltac:(unfold lanes in *; lia)). destruct (lane_value i); [reflexivity|contradiction].
    + apply F. lia.
  - intros i Hi. rewrite N'. replace (Nat.leb (Z.to_nat c) i && Nat.ltb i (Z.to_nat c + k)) with false; [apply R; lia|].
    symmetry. apply andb_false_iff. right. apply Nat.ltb_ge. lia.
Qed.
Lemma block_ok mem c left_n k : filled mem c -> 0 <= c -> (left_n = None /\ c + 64 <= n \/ left_n = Some (n - c)) ->
  (k <= lanes)%nat -> c + Z.of_nat k <= new_capacity t n -> c + 64 <= in_units n ->
  (match left_n, t with Some m, TNum _ => Z.to_nat m | _, _ => lanes end = k) ->
  exists mem', eval_block lib vecs t (cemit e) c left_n mem = Ret mem' /\ filled mem' (c + Z.of_nat k).
Proof.
  intros F C0 B Kl Cap U Hk.
  destruct (eval_ok c n left_n C0 B e (true, t) [] He Hp Hs) as (l & E & H).
  { intros i Hi. apply Hd. unfold lanes in Hi. lia. }
  unfold eval_block. rewrite E. cbn [obind rev app]. rewrite type_is. cbn [snd].
  apply (store_ok mem c k l left_n); auto.
Qed.
Lemma loop_ok fuel : forall c mem, 0 <= c <= n -> c mod 64 = 0 -> filled mem c -> (n - c) / 64 <= Z.of_nat fuel ->
  exists c' mem', vector_loop lib vecs fuel t (cemit e) (n - 64) c mem = Ret (c', mem') /\ filled mem' c' /\ 0 <= c' <= n /\ n - 64 < c' /\ c' mod 64 = 0.
Proof.
  change (2 ^ 30) with 1073741824 in Hn.
  induction fuel as [|fuel IH]; intros c mem C M F Fu.
  - cbn [vector_loop]. assert (n - c < 64) as L.
    { pose proof (Z.div_mod (n - c) 64 ltac:(lia)). pose proof (Z.mod_pos_bound (n - c) 64 ltac:(lia)). cbn in Fu. lia. }
    rewrite (proj2 (Z.leb_gt _ _)) by lia. exists c, mem. split; [reflexivity|]. split; [exact F|]. lia.
  - cbn [vector_loop]. destruct (Z.leb_spec c (n - 64)) as [L|L].
    + assert (64 <= new_capacity t n - c) as CP.
      { destruct type_cases as [ET|[w ET]].
        - rewrite capacity_bits by exact ET. pose proof (units_le n). lia.
        - pose proof (capacity_number w ET). lia. }
      destruct (block_ok mem c None lanes F ltac:(lia) ltac:(left; split; [reflexivity|lia]) ltac:(lia) ltac:(unfold lanes; lia) ltac:(pose proof (units_le n); lia) eq_refl) as (mem' & -> & F').
      cbn [obind]. assert (wraps 32 (c + unit_size) = c + 64) as ->.
      { unfold unit_size. apply wraps_id; [lia|]. split; [change (-2 ^ (32 - 1)) with (-2147483648); lia|change (2 ^ (32 - 1)) with 2147483648; lia]. }
      apply IH; [lia| | |].
      * replace (c + 64) with (c + 1 * 64) by lia. rewrite Z.mod_add by lia. exact M.
      * exact F'.
      * replace (n - (c + 64)) with (n - c + (-1) * 64) by lia. rewrite Z.div_add by lia. lia.
    + exists c, mem. split; [reflexivity|]. split; [exact F|]. lia.
Qed.
Lemma initialized_ok mem c : 0 <= c <= in_units n -> filled mem c -> c <= new_capacity t n ->
  length (initialized mem) = Z.to_nat c /\ forall i, Z.of_nat i < c -> nth_error (initialized mem) i = lane_value i.
Proof.
  intros C (L & F & R) Cap. set (k := Z.to_nat c).
  assert (forall i, (i < k)%nat -> nth_error mem i = Some (lane_value (0 + i))) as F' by (intros i Hi; apply F; lia).
  assert (nth_error mem k = None \/ nth_error mem k = Some None) as E.
  { destruct (Z.eq_dec c (new_capacity t n)); [left; apply nth_error_None; lia|right; apply R; lia]. }
  assert (forall i, (i < k)%nat -> lane_value (0 + i) <> None) as D by (intros i Hi; apply lane_value_some; lia).
  assert (length (initialized mem) = k /\ forall i, (i < k)%nat -> nth_error (initialized mem) i = lane_value (0 + i)) as [G1 G2].
  { clearbody k. clear L F R Cap. revert k F' E D. generalize 0%nat. induction mem as [|x mem IH]; intros s k F' E D.
    - destruct k; [|specialize (F' 0%nat ltac:(lia)); discriminate]. split; [reflexivity|intros; lia].
    - destruct k as [|k].
      + destruct E as [E|E]; cbn in E; [discriminate|]. injection E as ->. split; [reflexivity|intros; lia].
      + pose proof (F' 0%nat ltac:(lia)) as F0. pose proof (D 0%nat ltac:(lia)) as D0. cbn [nth_error] in F0. injection F0 as ->.
        destruct (lane_value (s + 0)) as [v|] eqn:Ev; [|contradiction]. cbn [initialized].
        destruct (IH (S s) k) as [I1 I2].
        * intros i Hi. specialize (F' (S i) ltac:(lia)). cbn [nth_error] in F'. replace (S s + i)%nat with (s + S i)%nat by lia. exact F'.
        * exact E.
        * intros i Hi. replace (S s + i)%nat with (s + S i)%nat by lia. apply D. lia.
        * split; [cbn; lia|]. intros [|i] Hi; cbn [nth_error]; [rewrite <- Ev; f_equal; f_equal; lia|].
          replace (s + S i)%nat with (S s + i)%nat by lia. apply I2. lia. }
  split; [exact G1|]. intros i Hi. apply G2. lia.
Qed.
(** ** Sizes *)
Fixpoint node_vectors (ns : list cnode) : list nat :=
  match ns with C_vec j :: ns => j :: node_vectors ns | _ :: ns => node_vectors ns | [] => [] end.
Lemma node_vectors_app a b : node_vectors (a ++ b) = node_vectors a ++ node_vectors b.
Proof. induction a as [|[] a IH]; cbn; rewrite ?IH; reflexivity. Qed.
Lemma as_type_vectors T x : node_vectors (as_type T x (cemit x)) = node_vectors (cemit x).
Proof. destruct x; reflexivity. Qed.
Lemma cemit_vectors x : node_vectors (cemit x) = vectors_of x.
Proof.
  induction x as [j|v s|op x IH|op a IHa b IHb|d IHd a IHa b IHb]; cbn [cemit vectors_of]; rewrite ?node_vectors_app, ?as_type_vectors, ?IH, ?IHa, ?IHb, ?IHd; cbn; rewrite ?app_nil_r; reflexivity.
Qed.
Lemma same_sizes_some ns m : (forall j, In j (node_vectors ns) -> v_size (vecs j) = m) -> same_sizes vecs ns (Some m) = Ret (Some m).
Proof.
  induction ns as [|[j| | ] ns IH]; cbn [same_sizes node_vectors]; intros H; auto.
  rewrite (H j (or_introl eq_refl)), Z.eqb_refl. apply IH. intros k Hk. apply H. right. exact Hk.
Qed.
Lemma same_sizes_ok ns m : (forall j, In j (node_vectors ns) -> v_size (vecs j) = m) -> node_vectors ns <> [] -> same_sizes vecs ns None = Ret (Some m).
Proof.
  induction ns as [|[j| | ] ns IH]; cbn [same_sizes node_vectors]; intros H N; [contradiction| | |]; auto.
  rewrite (H j (or_introl eq_refl)). apply same_sizes_some. intros k Hk. apply H. right. exact Hk.
Qed.
Lemma vector_has x : fst (ty x) = true -> vectors_of x <> [].
Proof.
  induction x as [j|v s|op x IH|op a IHa b IHb|d IHd a IHa b IHb]; cbn [etype fst vectors_of]; try discriminate; auto; rewrite ?orb_true_iff.
  - intros [H|H] E; apply app_eq_nil in E as [? ?]; [apply IHa|apply IHb]; assumption.
  - intros [[H|H]|H] E; apply app_eq_nil in E as [? E]; apply app_eq_nil in E as [? ?]; [apply IHd|apply IHa|apply IHb]; assumption.
Qed.
Lemma value_ext x f g : (forall j, In j (vectors_of x) -> f j = g j) -> value lib types f x = value lib types g x.
Proof.
  induction x as [j|v s|op x IH|op a IHa b IHb|d IHd a IHa b IHb]; cbn [value vectors_of]; intros H; auto.
  - apply H. left. reflexivity.
  - rewrite IH by exact H. reflexivity.
  - rewrite IHa, IHb by (intros; apply H, in_or_app; auto). reflexivity.
  - rewrite IHd, IHa, IHb by (intros; apply H; rewrite !in_app_iff; auto). reflexivity.
Qed.
Lemma run_ok fuel : n / 64 <= Z.of_nat fuel ->
  exists r, run_vector lib vecs fuel t (cemit e) = Ret r /\ v_ty r = t /\ v_size r = n /\ vector_ok r /\
    (forall v, In v (v_mem r) -> exists i, Z.of_nat i < in_units n /\ value lib types (in_lane vecs i) e = Some v) /\
    forall i, Z.of_nat i < n -> exists v, nth_error (v_mem r) i = Some v /\ value lib types (element vecs i) e = Some v.
Proof.
  intros Fu. unfold run_vector.
  rewrite (same_sizes_ok (cemit e) n) by (rewrite ?cemit_vectors; auto; apply vector_has; rewrite type_is; reflexivity). cbn [obind].
  assert (2 ^ 30 = 1073741824) as P30 by reflexivity. pose proof (units_le n) as Un.
  assert (wraps 32 (n - unit_size) = n - 64) as ->.
  { unfold unit_size. apply wraps_id; [lia|]. split; [change (-2 ^ (32 - 1)) with (-2147483648); lia|change (2 ^ (32 - 1)) with 2147483648; lia]. }
  assert (n <= new_capacity t n /\ (t = TBit -> new_capacity t n = in_units n)) as [Cap CapB].
  { split; [|apply capacity_bits]. destruct type_cases as [ET|[w ET]].
    - rewrite capacity_bits by exact ET. lia.
    - apply (capacity_number w ET). }
  destruct (loop_ok fuel 0 (repeat None (Z.to_nat (new_capacity t n)))) as (c & mem & -> & F & C & Lc & M).
  { lia. } { reflexivity. }
  { split; [rewrite repeat_length; lia|]. split; [intros; lia|]. intros i Hi. apply nth_error_repeat. lia. }
  { rewrite Z.sub_0_r. exact Fu. }
  cbn [obind].
  assert (forall m, filled m (match t with TBit => in_units n | _ => n end) ->
    exists r, Ret (Vec t n (initialized m)) = Ret r /\ v_ty r = t /\ v_size r = n /\ vector_ok r /\
    (forall v, In v (v_mem r) -> exists i, Z.of_nat i < in_units n /\ value lib types (in_lane vecs i) e = Some v) /\
    forall i, Z.of_nat i < n -> exists v, nth_error (v_mem r) i = Some v /\ value lib types (element vecs i) e = Some v) as Done.
  { intros m Fm. set (d := match t with TBit => in_units n | _ => n end) in *.
    assert (n <= d <= in_units n) as D by (subst d; destruct t; lia).
    assert (d <= new_capacity t n) as D2 by (subst d; destruct type_cases as [ET|[w ET]]; [rewrite (CapB ET)|]; rewrite ET in *; lia).
    destruct (initialized_ok m d ltac:(lia) Fm D2) as [I1 I2].
    eexists. split; [reflexivity|]. split; [reflexivity|]. split; [reflexivity|]. split.
    - split; [exact Hn|]. cbn [v_ty v_size v_mem]. rewrite I1. fold d. lia.
    - split. { intros v Hv. cbn [v_mem] in Hv. apply In_nth_error in Hv as [i Hi].
        assert (Z.of_nat i < d) as Li by (assert (i < length (initialized m))%nat by (apply nth_error_Some; congruence); lia).
        exists i. rewrite (I2 i Li) in Hi. split; [lia|exact Hi]. }
      intros i Hi. cbn [v_mem]. rewrite I2 by lia. pose proof (lane_value_some i ltac:(lia)) as NS.
      rewrite (value_ext e (element vecs i) (in_lane vecs i)).
      + destruct (lane_value i) as [v|]; [|contradiction]. exists v. auto.
      + intros j Hj. unfold in_lane. rewrite (Hs j Hj). rewrite (proj2 (Z.ltb_lt _ _)) by exact Hi. reflexivity. }
  destruct (Z.ltb_spec c n) as [L|L].
  - assert (wraps 32 (n - c) = n - c) as ->.
    { apply wraps_id; [lia|]. split; [change (-2 ^ (32 - 1)) with (-2147483648); lia|change (2 ^ (32 - 1)) with 2147483648; lia]. }
    assert (in_units n = c + 64) as U.
    { unfold in_units in *. pose proof (Z.div_mod c 64 ltac:(lia)). pose proof (Z.div_mod (n + 63) 64 ltac:(lia)). lia. }
    set (k := match t with TNum _ => Z.to_nat (n - c) | _ => lanes end).
    assert ((k <= lanes)%nat /\ c + Z.of_nat k <= new_capacity t n /\ c + Z.of_nat k = match t with TBit => in_units n | _ => n end) as (K1 & K2 & K3).
    { subst k. destruct type_cases as [ET|[w ET]]; [rewrite (CapB ET)|]; rewrite ET; unfold lanes; rewrite ET in Cap; lia. }
    destruct (block_ok mem c (Some (n - c)) k F ltac:(lia) ltac:(right; reflexivity) K1 K2 ltac:(lia)) as (m & -> & Fm).
    { subst k. destruct t; reflexivity. }
    cbn [obind]. apply Done. rewrite <- K3. exact Fm.
  - apply Done. assert (c = n) as -> by lia.
    assert (in_units n = n) as E.
    { unfold in_units in *. pose proof (Z.div_mod n 64 ltac:(lia)). pose proof (Z.div_mod (n + 63) 64 ltac:(lia)). pose proof (Z.mod_pos_bound (n + 63) 64 ltac:(lia)). lia. }
    rewrite E. destruct t; exact F.
Qed.
Definition plain_op (op : optok) : Prop :=
  match op with OP_ASSIGN | OP_PLUS_ASSIGN | OP_MINUS_ASSIGN | OP_MULTIPLY_ASSIGN | OP_DIVIDE_ASSIGN | OP_MOD_ASSIGN => False | _ => True end.
End E.

Section S.
Variable lib : optok -> vty -> list val -> option val.
Variable vecs : nat -> vec.
Notation types := (fun j => v_ty (vecs j)).

Lemma last_op x t : validate vecs x = Some t -> is_operation x = true -> exists l op, vemit x = l ++ [N_op op] /\ plain_op op /\ l <> [].
Proof.
  assert (forall x, vemit x <> []) as NE.
  { intros []; cbn [vemit]; try discriminate; intros E; apply (f_equal (@length _)) in E; rewrite !app_length in E; cbn in E; lia. }
  intros V O. destruct x as [j|v s|op x|op a b|d a b]; try discriminate.
  - exists (vemit x), op. split; [reflexivity|]. split; [|apply NE]. cbn in V. destruct (validate vecs x); [|discriminate].
    destruct op; cbn in V; try discriminate; exact I.
  - exists (vemit a ++ vemit b), op. split; [cbn [vemit]; rewrite app_assoc; reflexivity|]. split.
    + cbn in V. destruct (validate vecs a); [|discriminate]. destruct (validate vecs b); [|discriminate].
      apply check_binary_op in V. destruct op; try discriminate; exact I.
    + intros E. apply app_eq_nil in E as [E _]. apply (NE a E).
  - exists (vemit d ++ vemit a ++ vemit b), OP_CONDITIONAL. split; [cbn [vemit]; rewrite !app_assoc; reflexivity|]. split; [exact I|].
    intros E. apply app_eq_nil in E as [E _]. apply (NE d E).
Qed.
Lemma split_plain x t : validate vecs x = Some t -> split_assign (vemit x) = (None, vemit x).
Proof.
  intros V. destruct (is_operation x) eqn:O.
  - destruct (last_op x t V O) as (l & op & -> & P & N).
    destruct l as [|[j|v s|o] l]; [contradiction| | |]; cbn [app]; try reflexivity. unfold split_assign. cbn [rev]. rewrite rev_app_distr. cbn [rev app].
    destruct op; try reflexivity; contradiction.
  - destruct x; try discriminate; reflexivity.
Qed.
Lemma statement_op fuel x t : validate vecs x = Some t -> is_operation x = true ->
  run_statement lib vecs fuel (snd t) (vemit x) = (do! ns <- compile_vector vecs (vemit x); do! r <- run_vector lib vecs fuel (snd t) ns; Ret (r, vecs)).
Proof.
  intros V O. unfold run_statement. rewrite (split_plain x t V). destruct (last_op x t V O) as (l & op & -> & P & N).
  assert (forall A (f : nat -> A) (g1 g2 h : A), match l ++ [N_op op] with [N_vec k] => f k | [] | [N_scalar _ _] => g1 | _ => h end = h) as M.
  { intros. destruct l as [|[j|v s|o] [|y l]]; cbn; try reflexivity; contradiction. }
  rewrite M by exact UB. destruct (compile_vector vecs (l ++ [N_op op])) as [ns| | |]; cbn [obind]; try reflexivity.
Qed.
Theorem elementwise e t n fuel :
  validate vecs e = Some (true, t) -> is_operation e = true -> plain types e = true -> element_type t = true ->
  (forall j, In j (vectors_of e) -> v_size (vecs j) = n) -> 0 <= n < 2 ^ 30 -> bytes_of t n + 7 < 2 ^ 32 ->
  (forall i, Z.of_nat i < in_units n -> defined lib types (in_lane vecs i) e) -> n / 64 <= Z.of_nat fuel ->
  exists r, run_statement lib vecs fuel t (vemit e) = Ret (r, vecs) /\ v_ty r = t /\ v_size r = n /\ vector_ok r /\
    (forall v, In v (v_mem r) -> exists i, Z.of_nat i < in_units n /\ value lib types (in_lane vecs i) e = Some v) /\
    forall i, Z.of_nat i < n -> exists v, nth_error (v_mem r) i = Some v /\ value lib types (element vecs i) e = Some v.
Proof.
  intros V O P T S N B D F. pose proof (statement_op fuel e (true, t) V O) as St. cbn [snd] in St. rewrite St. clear St.
  destruct (compile_ok vecs e (true, t) [] [] V P) as (idxs & E & _). unfold compile_vector. rewrite E. cbn [obind app].
  destruct (run_ok lib vecs e t n V P T S N B D fuel F) as (r & E' & R). cbn [snd]. exists r. rewrite E'. split; [reflexivity|exact R].
Qed.

(** ** Different sizes *)
Fixpoint listed (l : list vnode) : list nat :=
  match l with N_vec j :: l => j :: listed l | _ :: l => listed l | [] => [] end.
Lemma listed_app a b : listed (a ++ b) = listed a ++ listed b.
Proof. induction a as [|[] a IH]; cbn; rewrite ?IH; reflexivity. Qed.
Lemma emit_vectors x : listed (vemit x) = vectors_of x.
Proof.
  induction x as [j|v s|op x IH|op a IHa b IHb|d IHd a IHa b IHb]; cbn [vemit vectors_of]; rewrite ?listed_app, ?IH, ?IHa, ?IHb, ?IHd; cbn; rewrite ?app_nil_r; reflexivity.
Qed.
Lemma cast_nodes_vectors t idxs : forall ns ns', cast_nodes t idxs ns = Ret ns' -> node_vectors ns' = node_vectors ns.
Proof.
  induction idxs as [|i idxs IH]; intros ns ns' H; cbn [cast_nodes] in H; [injection H as <-; reflexivity|].
  destruct (nth_error ns i) as [x|] eqn:E; [|discriminate]. destruct (cast_node t x) as [y| | |] eqn:C; cbn [obind] in H; try discriminate.
  apply IH in H. rewrite H. apply nth_error_split in E as (l1 & l2 & -> & <-).
  rewrite firstn_app, Nat.sub_diag, firstn_all. cbn [firstn]. rewrite app_nil_r.
  rewrite skipn_app. rewrite (skipn_all2 l1) by lia. replace (S (length l1) - length l1)%nat with 1%nat by lia. cbn [skipn app].
  rewrite !node_vectors_app. f_equal. unfold cast_node in C. destruct x as [j|v s casts|op s]; try discriminate.
  destruct (vty_eqb _ _); [injection C as <-; reflexivity|]. destruct (_ && _); [|discriminate]. injection C as <-. reflexivity.
Qed.
Lemma cast_operands_vectors t args : forall ns ns', cast_operands t args ns = Ret ns' -> node_vectors ns' = node_vectors ns.
Proof.
  induction args as [|o args IH]; intros ns ns' H; cbn [cast_operands] in H; [injection H as <-; reflexivity|].
  destruct (vty_eqb (o_ty o) t); cbn [obind] in H; [apply IH, H|].
  destruct (cast_nodes t (o_idxs o) ns) as [ns1| | |] eqn:E; cbn [obind] in H; try discriminate.
  rewrite (IH _ _ H). apply (cast_nodes_vectors _ _ _ _ E).
Qed.
Lemma compile_vectors l : forall ns st ns' st', compile_nodes vecs l (ns, st) = Ret (ns', st') -> node_vectors ns' = node_vectors ns ++ listed l.
Proof.
  induction l as [|x l IH]; intros ns st ns' st' H; cbn [compile_nodes] in H; [injection H as <- <-; cbn; rewrite app_nil_r; reflexivity|].
  destruct (compile_node vecs x (ns, st)) as [[ns1 st1]| | |] eqn:E; cbn [obind] in H; try discriminate.
  rewrite (IH _ _ _ _ H). destruct x as [j|v s|op]; cbn [compile_node] in E.
  - injection E as <- <-. rewrite node_vectors_app. cbn. rewrite <- app_assoc. reflexivity.
  - injection E as <- <-. rewrite node_vectors_app. cbn. rewrite app_nil_r. reflexivity.
  - destruct (operand_count op) as [k|]; [|discriminate]. destruct (Nat.ltb _ _); [discriminate|].
    destruct (compute_type _) as [[T b]| | |]; cbn [obind] in E; try discriminate.
    destruct (cast_operands _ _ _) as [ns2| | |] eqn:C; cbn [obind] in E; try discriminate.
    apply cast_operands_vectors in C. assert (ns1 = ns2 ++ [C_op op T]) as -> by (destruct (is_compare_op op); congruence).
    rewrite node_vectors_app, C. cbn. rewrite app_nil_r. reflexivity.
Qed.
Lemma same_sizes_differ ns : forall size i j, In i (node_vectors ns) -> (In j (node_vectors ns) /\ v_size (vecs i) <> v_size (vecs j) \/ exists m, size = Some m /\ v_size (vecs i) <> m) ->
  same_sizes vecs ns size = Err.
Proof.
  induction ns as [|[k|v s c|op t] ns IH]; intros size i j Hi H; cbn [same_sizes node_vectors In] in *; try contradiction; [|eapply IH; eauto|eapply IH; eauto].
  destruct size as [m|].
  - destruct (Z.eqb_spec m (v_size (vecs k))) as [E|E]; [|reflexivity]. subst m.
    destruct H as [[Hj D]|(m & [= <-] & D)].
    + destruct Hi as [<-|Hi].
      * destruct Hj as [<-|Hj]; [congruence|]. apply (IH _ j j Hj). right. eexists. split; [reflexivity|congruence].
      * destruct Hj as [<-|Hj]; [|apply (IH _ i j Hi); left; auto]. apply (IH _ i i Hi). right. eexists. split; [reflexivity|congruence].
    + destruct Hi as [<-|Hi]; [congruence|]. apply (IH _ i i Hi). right. eexists. split; [reflexivity|exact D].
  - destruct H as [[Hj D]|(m & ? & _)]; [|discriminate].
    destruct Hi as [<-|Hi].
    + destruct Hj as [<-|Hj]; [congruence|]. apply (IH _ j j Hj). right. eexists. split; [reflexivity|congruence].
    + destruct Hj as [<-|Hj]; [|apply (IH _ i j Hi); left; auto]. apply (IH _ i i Hi). right. eexists. split; [reflexivity|congruence].
Qed.
(** Compilation of an expression with a type: an error, or nodes *)
Definition leaf_at (ns : list cnode) (i : nat) : Prop := exists x, nth_error ns i = Some x /\ match x with C_op _ _ => False | _ => True end.
Definition keeps (ns ns' : list cnode) : Prop := forall i, leaf_at ns i -> leaf_at ns' i.
Lemma keeps_app ns l : keeps ns (ns ++ l).
Proof. intros i (x & E & L). exists x. split; [|exact L]. rewrite nth_error_app1; [exact E|]. apply nth_error_Some. congruence. Qed.
Lemma cast_nodes_safe t idxs : forall ns, Forall (leaf_at ns) idxs -> cast_nodes t idxs ns = Err \/ exists ns', cast_nodes t idxs ns = Ret ns' /\ keeps ns ns'.
Proof.
  induction idxs as [|i idxs IH]; intros ns H; cbn [cast_nodes]; [right; exists ns; split; [reflexivity|intros ? ?; assumption]|].
  inversion H as [|? ? (x & E & L) H']; subst. rewrite E.
  assert (cast_node t x = Err \/ exists y, cast_node t x = Ret y /\ match y with C_op _ _ => False | _ => True end) as [-> |(y & -> & Ly)].
  { unfold cast_node. destruct x as [j|v s casts|op s]; [auto| |contradiction]. destruct (vty_eqb _ _); [right; eexists; split; [reflexivity|exact I]|].
    destruct (_ && _); [right; eexists; split; [reflexivity|exact I]|auto]. }
  - left. reflexivity.
  - cbn [obind]. assert (keeps ns (firstn i ns ++ y :: skipn (S i) ns)) as K.
    { pose proof E as E0. apply nth_error_split in E0 as (l1 & l2 & -> & <-).
      rewrite firstn_app, Nat.sub_diag, firstn_all. cbn [firstn]. rewrite app_nil_r.
      rewrite skipn_app. rewrite (skipn_all2 l1) by lia. replace (S (length l1) - length l1)%nat with 1%nat by lia. cbn [skipn app].
      intros k (z & Ek & Lk). destruct (Nat.lt_ge_cases k (length l1)) as [Hk|Hk].
      - exists z. rewrite nth_error_app1 in * by exact Hk. auto.
      - rewrite nth_error_app2 in Ek by exact Hk. unfold leaf_at. rewrite nth_error_app2 by exact Hk.
        destruct (k - length l1)%nat; cbn in *; [exists y|exists z]; auto. }
    destruct (IH _ (Forall_impl _ K H')) as [-> |(ns' & -> & K')]; [left; reflexivity|]. right. exists ns'. split; [reflexivity|].
    intros k Hk. apply K', K, Hk.
Qed.
Lemma cast_operands_safe t args : forall ns, Forall (fun o => Forall (leaf_at ns) (o_idxs o)) args ->
  cast_operands t args ns = Err \/ exists ns', cast_operands t args ns = Ret ns' /\ keeps ns ns'.
Proof.
  induction args as [|o args IH]; intros ns H; cbn [cast_operands]; [right; exists ns; split; [reflexivity|intros ? ?; assumption]|].
  inversion H as [|? ? Ho H']; subst. destruct (vty_eqb (o_ty o) t); cbn [obind]; [apply IH, H'|].
  destruct (cast_nodes_safe t (o_idxs o) ns Ho) as [-> |(ns' & -> & K)]; [left; reflexivity|]. cbn [obind].
  destruct (IH ns') as [-> |(ns2 & -> & K2)]; [|left; reflexivity|].
  - eapply Forall_impl; [|exact H']. intros o'. apply Forall_impl. exact K.
  - right. exists ns2. split; [reflexivity|]. intros i Hi. apply K2, K, Hi.
Qed.
Lemma operator_safe op k args ns : operand_count op = Some k -> (optok_eqb op OP_CONDITIONAL = true -> k = 3%nat) -> length args = k -> Forall (fun o => Forall (leaf_at ns) (o_idxs o)) args ->
  k <> 0%nat -> forall stack, compile_node vecs (N_op op) (ns, args ++ stack) = Err \/
  exists ns' o, compile_node vecs (N_op op) (ns, args ++ stack) = Ret (ns', o :: stack) /\ keeps ns ns' /\ Forall (leaf_at ns') (o_idxs o).
Proof.
  intros K C L H NZ stack. cbn [compile_node]. rewrite K. rewrite (proj2 (Nat.ltb_ge _ _)) by (rewrite app_length; lia).
  set (count := if optok_eqb op OP_CONDITIONAL then 2%nat else k).
  assert (0 < count <= k)%nat as Hc by (subst count; destruct (optok_eqb op OP_CONDITIONAL); [rewrite (C eq_refl)|]; lia).
  assert (firstn count (args ++ stack) = firstn count args) as -> by (rewrite firstn_app; replace (count - length args)%nat with 0%nat by lia; cbn; apply app_nil_r).
  assert (skipn k (args ++ stack) = stack) as ->. { rewrite skipn_app. rewrite skipn_all2 by lia. replace (k - length args)%nat with 0%nat by lia. reflexivity. }
  set (l := rev (firstn count args)).
  assert (Forall (fun o => Forall (leaf_at ns) (o_idxs o)) l) as Fl.
  { apply Forall_rev. rewrite <- (firstn_skipn count args) in H. apply Forall_app in H. apply H. }
  assert (exists T b, compute_type l = Ret (T, b)) as (T & b & ->).
  { unfold compute_type. destruct (find o_vec l); [eauto|]. destruct l as [|o l'] eqn:E; [|eauto]. exfalso.
    apply (f_equal (@length _)) in E. unfold l in E. rewrite rev_length, firstn_length in E. cbn in E. lia. }
  cbn [obind]. destruct (cast_operands_safe T l ns Fl) as [-> |(ns' & -> & Ks)]; [left; reflexivity|]. cbn [obind]. right.
  assert (Forall (leaf_at (ns' ++ [C_op op T])) (flat_map o_idxs l)) as G.
  { apply Forall_flat_map. eapply Forall_impl; [|exact Fl]. intros o. apply Forall_impl. intros i Hi. apply keeps_app, Ks, Hi. }
  destruct (is_compare_op op); (eexists; eexists; split; [reflexivity|]; split; [intros i Hi; apply keeps_app, Ks, Hi|exact G]).
Qed.
Lemma compile_safe e : forall t ns stack, validate vecs e = Some t ->
  compile_nodes vecs (vemit e) (ns, stack) = Err \/
  exists ns' o, compile_nodes vecs (vemit e) (ns, stack) = Ret (ns', o :: stack) /\ keeps ns ns' /\ Forall (leaf_at ns') (o_idxs o).
Proof.
  assert (forall ns x, match x with C_op _ _ => False | _ => True end -> leaf_at (ns ++ [x]) (length ns)) as New.
  { intros ns x L. exists x. split; [apply nth_middle|exact L]. }
  assert (forall (p q : list cnode) l, keeps p q -> Forall (leaf_at p) l -> Forall (leaf_at q) l) as Mono by (intros p q l K; apply Forall_impl, K).
  induction e as [j|v s|op e IH|op a IHa b IHb|d IHd a IHa b IHb]; intros t ns stack V; cbn [vemit].
  - right. eexists. eexists. split; [reflexivity|]. split; [apply keeps_app|]. constructor; [apply New; exact I|constructor].
  - right. eexists. eexists. split; [reflexivity|]. split; [apply keeps_app|]. constructor; [apply New; exact I|constructor].
  - cbn [validate] in V. destruct (validate vecs e) as [x|]; [|discriminate]. destruct (unary_op_ok _ _ _ V) as (K & _ & NC & _).
    rewrite compile_app. destruct (IH x ns stack eq_refl) as [-> |(n1 & o1 & -> & K1 & L1)]; [left; reflexivity|]. cbn [obind compile_nodes].
    destruct (operator_safe op 1 [o1] n1 K ltac:(congruence) eq_refl ltac:(auto) ltac:(lia) stack) as [E|(n2 & o2 & E & K2 & L2)]; cbn [app] in E; rewrite E; [left; reflexivity|].
    right. exists n2, o2. split; [reflexivity|]. split; [intros i Hi; apply K2, K1, Hi|exact L2].
  - cbn [validate] in V. destruct (validate vecs a) as [x|]; [|discriminate]. destruct (validate vecs b) as [y|]; [|discriminate].
    destruct (binary_op_ok op (check_binary_op _ _ _ _ V)) as (K & _ & NC).
    rewrite compile_app. destruct (IHa x ns stack eq_refl) as [-> |(n1 & o1 & -> & K1 & L1)]; [left; reflexivity|]. cbn [obind].
    rewrite compile_app. destruct (IHb y n1 (o1 :: stack) eq_refl) as [-> |(n2 & o2 & -> & K2 & L2)]; [left; reflexivity|]. cbn [obind compile_nodes].
    destruct (operator_safe op 2 [o2; o1] n2 K ltac:(congruence) eq_refl ltac:(eauto) ltac:(lia) stack) as [E|(n3 & o3 & E & K3 & L3)]; cbn [app] in E; rewrite E; [left; reflexivity|].
    right. exists n3, o3. split; [reflexivity|]. split; [intros i Hi; apply K3, K2, K1, Hi|exact L3].
  - cbn [validate] in V. destruct (validate vecs d) as [z|]; [|discriminate]. destruct (validate vecs a) as [x|]; [|discriminate]. destruct (validate vecs b) as [y|]; [|discriminate].
    rewrite compile_app. destruct (IHd z ns stack eq_refl) as [-> |(n0 & o0 & -> & K0 & L0)]; [left; reflexivity|]. cbn [obind].
    rewrite compile_app. destruct (IHa x n0 (o0 :: stack) eq_refl) as [-> |(n1 & o1 & -> & K1 & L1)]; [left; reflexivity|]. cbn [obind].
    rewrite compile_app. destruct (IHb y n1 (o1 :: o0 :: stack) eq_refl) as [-> |(n2 & o2 & -> & K2 & L2)]; [left; reflexivity|]. cbn [obind compile_nodes].
    destruct (operator_safe OP_CONDITIONAL 3 [o2; o1; o0] n2 eq_refl ltac:(reflexivity) eq_refl ltac:(eauto 12) ltac:(lia) stack) as [E|(n3 & o3 & E & K3 & L3)]; cbn [app] in E; rewrite E; [left; reflexivity|].
    right. exists n3, o3. split; [reflexivity|]. split; [intros i Hi; apply K3, K2, K1, K0, Hi|exact L3].
Qed.
Theorem different_sizes e t fuel i j :
  validate vecs e = Some t -> In i (vectors_of e) -> In j (vectors_of e) -> v_size (vecs i) <> v_size (vecs j) ->
  run_statement lib vecs fuel (snd t) (vemit e) = Err.
Proof.
  intros V Hi Hj D. assert (is_operation e = true) as O.
  { destruct e; try reflexivity; cbn in Hi, Hj; [destruct Hi as [<-|[]], Hj as [<-|[]]; congruence|contradiction]. }
  rewrite (statement_op fuel e t V O). unfold compile_vector in *.
  destruct (compile_safe e t [] [] V) as [-> |(ns & o & E & _)]; [reflexivity|]. rewrite E. cbn [obind].
  apply compile_vectors in E. cbn [node_vectors app] in E. rewrite emit_vectors in E. unfold run_vector.
  rewrite (same_sizes_differ ns None i j) by (rewrite ?E; auto). reflexivity.
Qed.
(** ** Assignment *)
Definition assign_of (j : nat) (op : optok) (e : vexpr) : option vexpr :=
  match op with
  | OP_ASSIGN => Some e
  | OP_PLUS_ASSIGN => Some (EBin OP_PLUS (EVec j) e)
  | OP_MINUS_ASSIGN => Some (EBin OP_MINUS (EVec j) e)
  | OP_MULTIPLY_ASSIGN => Some (EBin OP_MULTIPLY (EVec j) e)
  | OP_DIVIDE_ASSIGN => Some (EBin OP_DIVIDE (EVec j) e)
  | OP_MOD_ASSIGN => Some (EBin OP_MOD (EVec j) e)
  | _ => None
  end.
Lemma split_assigned j op e rhs : assign_of j op e = Some rhs -> split_assign (N_vec j :: vemit e ++ [N_op op]) = (Some j, vemit rhs).
Proof.
  intros A. unfold split_assign. cbn [rev]. rewrite rev_app_distr. cbn [rev app].
  change (N_vec j :: vemit e ++ [N_op op]) with ((N_vec j :: vemit e) ++ [N_op op]). rewrite !removelast_last.
  destruct op; cbn in A; try discriminate; injection A as <-; cbn [vemit app]; reflexivity.
Qed.
Theorem assigned fuel t j op e rhs r vt : assign_of j op e = Some rhs -> validate vecs rhs = Some vt ->
  run_statement lib vecs fuel t (vemit rhs) = Ret (r, vecs) -> v_ty r = v_ty (vecs j) ->
  run_statement lib vecs fuel t (N_vec j :: vemit e ++ [N_op op]) = Ret (r, fun k => if Nat.eqb k j then r else vecs k).
Proof.
  intros A V R T. unfold run_statement in *. rewrite (split_plain rhs vt V) in R. rewrite (split_assigned j op e rhs A).
  match type of R with (do! r <- ?x; _) = _ => destruct x as [r'| | |] eqn:E end; cbn [obind] in R; try discriminate. injection R as ->.
  cbn [obind]. rewrite T, vty_refl. reflexivity.
Qed.
(** ** Operators that always have results *)
Notation ty := (etype types).
Lemma oper_shaped op t x y : never_fails op t = true -> shaped t x = true -> shaped t y = true ->
  (t <> TBit \/ op = OP_LOGIC_AND \/ op = OP_LOGIC_OR) -> (number t = true -> op <> OP_LOGIC_AND /\ op <> OP_LOGIC_OR) ->
  exists v, oper lib op t [x; y] = Some v /\ shaped (if comparison_op op then TBit else t) v = true.
Proof.
  intros N X Y TB TN. destruct t as [| |m]; [destruct x; discriminate| |].
  - destruct x as [x|], y as [y|]; try discriminate. destruct TB as [?|[-> | ->]]; [contradiction| |]; eexists; (split; [reflexivity|reflexivity]).
  - destruct (TN eq_refl) as [NA NO]. cbn [shaped] in X, Y. destruct x as [x|x], y as [y|y]; try (destruct (ty_integer m); discriminate).
    + cbn [oper]. rewrite X. destruct op; try discriminate; try contradiction; try (eexists; split; [reflexivity|cbn; exact X || reflexivity]).
      cbn in N. rewrite X in N. discriminate.
    + cbn [oper]. apply negb_true_iff in X. rewrite X. destruct op; try discriminate; try contradiction; eexists; (split; [reflexivity|]); cbn; rewrite ?X; reflexivity.
Qed.
Lemma cast_shaped a b v : number a = true -> number b = true -> negb (floating a) || floating b = true -> shaped a v = true -> exists w, cast a b v = Some w /\ shaped b w = true.
Proof.
  destruct a as [| |m], b as [| |n]; try discriminate. intros _ _ F V. cbn [floating shaped] in *. destruct v as [x|f]; cbn [cast].
  - destruct (ty_integer n) eqn:N; eexists; (split; [reflexivity|cbn; rewrite ?N; reflexivity]).
  - rewrite V in F. cbn in F. apply negb_true_iff in F. rewrite F. eexists. split; [reflexivity|]. cbn. rewrite ?F. reflexivity.
Qed.
Lemma converted_shaped a t v : (snd (ty a) = t \/ number (snd (ty a)) = true /\ number t = true) -> negb (floating (snd (ty a))) || floating t = true -> shaped (snd (ty a)) v = true ->
  exists w, converted (snd (ty a)) t (Some v) = Some w /\ shaped t w = true.
Proof.
  intros C F V. unfold converted. destruct (vty_eqb (snd (ty a)) t) eqn:E.
  - apply vty_eqb_iff in E. rewrite <- E. eauto.
  - apply vty_neq in E. destruct C as [C|[Ca Ct]]; [contradiction|]. apply cast_shaped; assumption.
Qed.
Lemma fits_number a b : fits types a b = true ->
  (snd (ty a) = meet (ty a) (ty b) \/ number (snd (ty a)) = true /\ number (meet (ty a) (ty b)) = true) /\
  (snd (ty b) = meet (ty a) (ty b) \/ number (snd (ty b)) = true /\ number (meet (ty a) (ty b)) = true).
Proof.
  intros F. destruct (fits_cases vecs a b F) as [[Ea Eb]|[(v & s & E & D & Ns & Nt & Eb & _)|(v & s & E & D & Ns & Nt & Ea & _)]].
  - auto.
  - split; [right|left; exact Eb]. rewrite E at 1. auto.
  - split; [left; exact Ea|right]. rewrite E at 1. auto.
Qed.
Lemma logic_bits op a b t : check_binary op a b = Some t -> op = OP_LOGIC_AND \/ op = OP_LOGIC_OR -> snd a = TBit /\ snd b = TBit.
Proof.
  intros H O. unfold check_binary in H. destruct (check_operands a b) as [[l r]|] eqn:C; [|discriminate].
  replace (is_arith op) with false in H by (destruct O as [-> | ->]; reflexivity). replace (is_compare_op op) with false in H by (destruct O as [-> | ->]; reflexivity).
  replace (optok_eqb op OP_LOGIC_AND || optok_eqb op OP_LOGIC_OR) with true in H by (destruct O as [-> | ->]; reflexivity).
  unfold check_operands in C. destruct (type_eqb a b) eqn:E.
  - injection C as <- <-. apply type_eqb_iff in E. subst b. rewrite orb_diag in H.
    destruct (fst a && vty_eqb (snd a) TBit) eqn:B.
    + apply andb_true_iff in B as [_ B]. apply vty_eqb_iff in B. auto.
    + destruct (type_eqb a (false, TBit)) eqn:B'; [|discriminate]. apply type_eqb_iff in B'. subst a. auto.
  - exfalso. destruct (fst a || fst b).
    + destruct (fst a && fst b); [discriminate|]. destruct (is_num (snd a) && is_num (snd b)) eqn:N; [|discriminate]. injection C as <- <-.
      destruct a as [va [| |x]], b as [vb [| |y]]; cbn in N; try discriminate. unfold type_eqb in H. cbn in H. rewrite !andb_false_r in H. discriminate.
    + destruct (is_num (snd a) && is_num (snd b)) eqn:N; [|discriminate]. injection C as <- <-.
      destruct a as [va [| |x]], b as [vb [| |y]]; cbn in N; try discriminate. unfold type_eqb in H. cbn in H. rewrite !andb_false_r in H. discriminate.
Qed.
Lemma number_operands op a b t : check_binary op a b = Some t -> op <> OP_LOGIC_AND -> op <> OP_LOGIC_OR -> number (meet a b) = true.
Proof.
  intros H NA NO. pose proof (check_binary_op _ _ _ _ H) as B. unfold check_binary in H. destruct (check_operands a b) as [[l r]|] eqn:C; [|discriminate].
  assert (is_num (snd l) && is_num (snd r) = true) as N.
  { destruct (is_num (snd l) && is_num (snd r)); [reflexivity|]. destruct (is_arith op); [discriminate|]. destruct (is_compare_op op) eqn:K; [discriminate|].
    destruct op; try discriminate; contradiction. }
  apply andb_true_iff in N as [Nl Nr]. change (is_num (meet a b) = true). unfold check_operands in C. destruct (type_eqb a b) eqn:E.
  - injection C as <- <-. unfold meet. destruct (fst a), (fst b); try assumption. destruct (_ <=? _); assumption.
  - destruct (fst a || fst b) eqn:V.
    + destruct (fst a && fst b); [discriminate|]. destruct (is_num (snd a) && is_num (snd b)) eqn:N; [|discriminate]. apply andb_true_iff in N as [Na Nb].
      unfold meet. destruct (fst a), (fst b); try assumption. destruct (_ <=? _); assumption.
    + destruct (is_num (snd a) && is_num (snd b)) eqn:N; [|discriminate]. apply andb_true_iff in N as [Na Nb].
      unfold meet. destruct (fst a), (fst b); try assumption. destruct (_ <=? _); assumption.
Qed.
Lemma total_defined e elem : forall t, validate vecs e = Some t -> plain types e = true -> total types e = true ->
  (forall j, In j (vectors_of e) -> exists v, elem j = Some v /\ shaped (v_ty (vecs j)) v = true) ->
  defined lib types elem e /\ exists v, value lib types elem e = Some v /\ shaped (snd (ty e)) v = true.
Proof.
  induction e as [j|v s|op e IH|op a IHa b IHb|d IHd a IHa b IHb]; intros t V P T H.
  - destruct (H j (or_introl eq_refl)) as (v & E & S). cbn. rewrite E. split; [split; [discriminate|exact I]|eauto].
  - cbn in *. split; [split; [discriminate|exact I]|eauto].
  - cbn [validate plain total vectors_of] in *. destruct (validate vecs e) as [x|] eqn:Ve; [|discriminate].
    destruct (IH x eq_refl P T H) as (D & v & E & S). pose proof (validate_type vecs e x Ve P) as X.
    assert (exists w, oper lib op (snd (ty e)) [v] = Some w /\ shaped (snd (ty e)) w = true) as (w & O & W).
    { rewrite <- X in *. destruct op; cbn [check_unary] in V; try discriminate.
      - destruct (snd x) as [| |m]; cbn in V; try discriminate. cbn [shaped] in S. destruct v; eexists; (split; [reflexivity|]); cbn; exact S.
      - destruct (vty_eqb (snd x) TBit) eqn:B; [|discriminate]. apply vty_eqb_iff in B. rewrite B in *. destruct v; [|discriminate]. eexists. split; reflexivity. }
    cbn [defined value etype]. rewrite E, O. split; [split; [discriminate|exact D]|eauto].
  - cbn [validate plain total vectors_of] in V, P, T, H. destruct (validate vecs a) as [x|] eqn:Va; [|discriminate]. destruct (validate vecs b) as [y|] eqn:Vb; [|discriminate].
    rewrite !andb_true_iff in P. rewrite !andb_true_iff in T. destruct P as [[Pa Pb] F]. destruct T as [[[[Ta Tb] NF] Ia] Ib].
    destruct (IHa x eq_refl Pa Ta) as (Da & va & Ea & Sa); [intros j Hj; apply H, in_or_app; auto|].
    destruct (IHb y eq_refl Pb Tb) as (Db & vb & Eb & Sb); [intros j Hj; apply H, in_or_app; auto|].
    pose proof (validate_type vecs a x Va Pa) as Xa. pose proof (validate_type vecs b y Vb Pb) as Xb. rewrite Xa, Xb in V.
    destruct (fits_number a b F) as [Fa Fb]. set (m := meet (ty a) (ty b)) in *.
    destruct (converted_shaped a m va Fa Ia Sa) as (wa & Ca & Wa). destruct (converted_shaped b m vb Fb Ib Sb) as (wb & Cb & Wb).
    destruct (oper_shaped op m wa wb NF Wa Wb) as (w & O & W).
    { destruct (vty_eq_dec m TBit) as [M|M]; [right|left; exact M]. destruct op; auto;
      (pose proof (number_operands _ _ _ _ V ltac:(discriminate) ltac:(discriminate)) as N; fold m in N; rewrite M in N; discriminate). }
    { intros N. assert (forall o, op = o -> o = OP_LOGIC_AND \/ o = OP_LOGIC_OR -> False) as K.
      { intros o -> L. destruct (logic_bits _ _ _ _ V L) as [La Lb]. subst m. unfold meet in N. rewrite La, Lb in N. destruct (fst (ty a)), (fst (ty b)); discriminate. }
      split; intros E; apply (K _ E); auto. }
    cbn [defined value etype snd]. fold m. rewrite Ea, Eb, Ca, Cb, O. split; [|exists w; split; [reflexivity|]; destruct (comparison_op op); exact W].
    split; [discriminate|]. split; [exact Da|]. split; [exact Db|]. split; discriminate.
  - cbn [validate plain total vectors_of] in V, P, T, H. destruct (validate vecs d) as [z|] eqn:Vd; [|discriminate].
    destruct (validate vecs a) as [x|] eqn:Va; [|discriminate]. destruct (validate vecs b) as [y|] eqn:Vb; [|discriminate].
    rewrite !andb_true_iff in P. rewrite !andb_true_iff in T. destruct P as [[[Pd Pa] Pb] F]. destruct T as [[[[Td Ta] Tb] Ia] Ib].
    destruct (IHd z eq_refl Pd Td) as (Dd & vd & Ed & Sd); [intros j Hj; apply H; rewrite !in_app_iff; auto|].
    destruct (IHa x eq_refl Pa Ta) as (Da & va & Ea & Sa); [intros j Hj; apply H; rewrite !in_app_iff; auto|].
    destruct (IHb y eq_refl Pb Tb) as (Db & vb & Eb & Sb); [intros j Hj; apply H; rewrite !in_app_iff; auto|].
    pose proof (validate_type vecs a x Va Pa) as Xa. pose proof (validate_type vecs b y Vb Pb) as Xb. pose proof (validate_type vecs d z Vd Pd) as Xd. rewrite Xa, Xb, Xd in V.
    destruct (check_select_type vecs d a b t V F) as [Bd _]. rewrite Bd in Sd. destruct vd as [c|]; [|discriminate].
    destruct (fits_number a b F) as [Fa Fb]. set (m := meet (ty a) (ty b)) in *.
    destruct (converted_shaped a m va Fa Ia Sa) as (wa & Ca & Wa). destruct (converted_shaped b m vb Fb Ib Sb) as (wb & Cb & Wb).
    cbn [defined value etype snd]. fold m. rewrite Ea, Eb, Ed, Ca, Cb. split.
    + split; [destruct (c =? 1); discriminate|]. split; [exact Dd|]. split; [exact Da|]. split; [exact Db|]. split; discriminate.
    + destruct (c =? 1); [exists wa|exists wb]; auto.
Qed.
Theorem elementwise_total e t n fuel :
  validate vecs e = Some (true, t) -> is_operation e = true -> plain types e = true -> total types e = true -> element_type t = true ->
  (forall j, In j (vectors_of e) -> v_size (vecs j) = n /\ proper_vector (vecs j)) -> bytes_of t n + 7 < 2 ^ 32 -> n / 64 <= Z.of_nat fuel ->
  exists r, run_statement lib vecs fuel t (vemit e) = Ret (r, vecs) /\ v_ty r = t /\ v_size r = n /\ proper_vector r /\
    forall i, Z.of_nat i < n -> exists v, nth_error (v_mem r) i = Some v /\ value lib types (element vecs i) e = Some v.
Proof.
  intros V O P T E S B F. pose proof (validate_type vecs e (true, t) V P) as TE.
  assert (vectors_of e <> []) as NE by (apply (vector_has vecs); rewrite <- TE; reflexivity).
  assert (0 <= n < 2 ^ 30) as N. { destruct (vectors_of e) as [|j l]; [contradiction|]. destruct (S j (or_introl eq_refl)) as [<- [[? _] _]]. assumption. }
  assert (forall i, Z.of_nat i < in_units n -> defined lib types (in_lane vecs i) e /\ exists v, value lib types (in_lane vecs i) e = Some v /\ shaped (snd (ty e)) v = true) as D.
  { intros i Hi. apply (total_defined e (in_lane vecs i) (true, t) V P T). intros j Hj. destruct (S j Hj) as (Sz & (_ & Mem) & ET & Sh).
    rewrite Sz in Mem. unfold in_lane, element. rewrite Sz. destruct (Z.ltb_spec (Z.of_nat i) n) as [L|L]; cbn [orb].
    - destruct (nth_error (v_mem (vecs j)) i) as [v|] eqn:K; [exists v; split; [reflexivity|]; apply Sh; eapply nth_error_In; eauto|].
      apply nth_error_None in K. pose proof (units_le n). destruct (v_ty (vecs j)); lia.
    - destruct (vty_eqb (v_ty (vecs j)) TBit) eqn:VB.
      + apply vty_eqb_iff in VB. destruct (nth_error (v_mem (vecs j)) i) as [v|] eqn:K; [exists v; split; [reflexivity|]; apply Sh; eapply nth_error_In; eauto|].
        apply nth_error_None in K. rewrite VB in Mem. lia.
      + apply vty_neq in VB. destruct (v_ty (vecs j)) as [| |m]; try discriminate; [contradiction|]. destruct m; try discriminate; eexists; split; reflexivity. }
  destruct (elementwise e t n fuel V O P E (fun j H => proj1 (S j H)) N B (fun i H => proj1 (D i H)) F) as (r & R & Rt & Rs & Rok & Rin & Rv).
  exists r. split; [exact R|]. split; [exact Rt|]. split; [exact Rs|]. split; [|exact Rv]. split; [exact Rok|]. rewrite Rt. split; [exact E|].
  intros v Hv. destruct (Rin v Hv) as (i & Hi & Vi). destruct (D i Hi) as (_ & w & W & Sw). rewrite Vi in W. injection W as <-. rewrite <- TE in Sw. exact Sw.
Qed.
(** ** Integers *)
Lemma read_ok t v m : read t v = Some m -> v = machine m /\ fits_type m = true /\ ideal_type m = t.
Proof.
  unfold read. destruct t as [| |k], v as [x|f]; try discriminate.
  - destruct (Z.eqb_spec x 0); [intros [= <-]; subst; auto|]. destruct (Z.eqb_spec x 1); [intros [= <-]; subst; auto|discriminate].
  - destruct (layout k) as [[w s]|] eqn:L; [|discriminate]. destruct ((0 <=? x) && (x <? 2 ^ w)) eqn:R; [|discriminate]. intros [= <-].
    apply andb_true_iff in R as [R1 R2]. apply Z.leb_le in R1. apply Z.ltb_lt in R2.
    destruct (Scalar_Proofs.layout_ok _ _ _ L) as (_ & _ & _ & W). pose proof (Scalar_Proofs.half w W) as Hh.
    cbn [machine fits_type ideal_type]. unfold encode, holds. rewrite L. split; [|split; [|reflexivity]].
    + destruct s; cbn [andb]; [|rewrite Z.mod_small by lia; reflexivity]. destruct (Z.leb_spec (2 ^ (w - 1)) x); [|rewrite Z.mod_small by lia; reflexivity].
      replace (x - 2 ^ w) with (x + (-1) * 2 ^ w) by lia. rewrite Z.mod_add by lia. rewrite Z.mod_small by lia. reflexivity.
    + destruct s; cbn [andb]; [destruct (Z.leb_spec (2 ^ (w - 1)) x)|]; apply andb_true_iff; rewrite Z.leb_le, Z.ltb_lt; lia.
Qed.
Lemma both_oper op m x y r : both op (MInt m x) (MInt m y) = Some r -> oper lib op (TNum m) [encode m x; encode m y] = Some (machine r) /\ fits_type r = true /\
  holds m x = true /\ holds m y = true /\ ideal_type r = if comparison_op op then TBit else TNum m.
Proof.
  cbn [both]. rewrite Scalar_Proofs.wider_self. destruct (holds m x) eqn:Hx; [|discriminate]. destruct (holds m y) eqn:Hy; [|discriminate]. cbn [andb].
  destruct (compares op) as [f|] eqn:C.
  - intros [= <-]. split; [apply Scalar_Proofs.int_compare; assumption|]. split; [reflexivity|]. split; [reflexivity|]. split; [reflexivity|].
    destruct op; cbn in C; try discriminate; reflexivity.
  - intros H. assert (exists z, computes op x y = Some z /\ keep m z = Some r /\ (op = OP_DIVIDE \/ op = OP_MOD -> holds m (Z.quot x y) = true)) as (z & Cz & K & Q).
    { destruct op; try (destruct (holds m (Z.quot x y)) eqn:Q; [|discriminate]); (destruct (computes _ x y) as [z|] eqn:Cz; [|discriminate]); exists z; repeat split; auto; intros [E|E]; discriminate. }
    apply Scalar_Proofs.keep_inv in K as [K ->]. split; [apply Scalar_Proofs.int_compute; assumption|]. split; [exact K|]. split; [reflexivity|]. split; [reflexivity|].
    cbn [ideal_type]. destruct op; cbn in C; try discriminate; reflexivity.
Qed.
Lemma ideal_ok elem e : forall m, ideal_value types elem e = Some m ->
  plain types e = true -> (exists t, validate vecs e = Some t) ->
  defined lib types elem e /\ value lib types elem e = Some (machine m) /\ fits_type m = true /\ ideal_type m = snd (ty e).
Proof.
  assert (forall x t s m, ideal_type (MInt s x) = t -> holds s x = true -> ty_integer m = true -> converted t (TNum m) (Some (machine (MInt s x))) = Some (encode m x)) as CV.
  { intros x t s m <- Hx Im. cbn [ideal_type machine]. unfold converted. destruct (vty_eqb (TNum s) (TNum m)) eqn:E; [apply vty_eqb_iff in E; injection E as ->; reflexivity|].
    apply Scalar_Proofs.cast_int; assumption. }
  induction e as [j|v s|op e IH|op a IHa b IHb|d IHd a IHa b IHb]; intros m H P [t V].
  - cbn in *. destruct (elem j) as [v|]; [|discriminate]. destruct (read_ok _ _ _ H) as (-> & F & T). repeat split; auto; discriminate.
  - cbn in *. destruct (read_ok _ _ _ H) as (-> & F & T). repeat split; auto; discriminate.
  - cbn [validate plain ideal_value] in *. destruct (validate vecs e) as [x|] eqn:Ve; [|discriminate].
    destruct op; try discriminate; (destruct (ideal_value types elem e) as [[b|k z]|]; try discriminate);
      destruct (IH _ eq_refl P (ex_intro _ x eq_refl)) as (D & E & F & T); cbn [defined value etype]; rewrite E, <- T.
    + apply Scalar_Proofs.keep_inv in H as [K ->]. cbn [ideal_type machine fits_type] in *. rewrite (Scalar_Proofs.int_negate lib k z F). repeat split; auto; discriminate.
    + injection H as <-. destruct b; (split; [split; [discriminate|exact D]|]); split; reflexivity || (split; reflexivity).
  - cbn [validate plain ideal_value] in *. destruct (validate vecs a) as [x|] eqn:Va; [|discriminate]. destruct (validate vecs b) as [y|] eqn:Vb; [|discriminate].
    rewrite !andb_true_iff in P. destruct P as [[Pa Pb] F].
    destruct (ideal_value types elem a) as [ma|]; [|discriminate]. destruct (ideal_value types elem b) as [mb|]; [|destruct ma; discriminate].
    destruct (IHa _ eq_refl Pa (ex_intro _ x eq_refl)) as (Da & Ea & Fa & Ta). destruct (IHb _ eq_refl Pb (ex_intro _ y eq_refl)) as (Db & Eb & Fb & Tb).
    cbn [defined value etype snd]. rewrite Ea, Eb.
    destruct ma as [p|sa p], mb as [q|sb q]; try discriminate.
    + assert (meet (ty a) (ty b) = TBit) as M. { unfold meet. rewrite <- Ta, <- Tb. destruct (fst (ty a)), (fst (ty b)); reflexivity. }
      rewrite M, <- Ta, <- Tb. unfold converted. cbn [ideal_type]. rewrite (vty_refl TBit). cbn [both] in H.
      destruct op; try discriminate; injection H as <-; destruct p, q; (split; [split; [discriminate|]; split; [exact Da|]; split; [exact Db|]; split; discriminate|]); split; reflexivity || (split; reflexivity).
    + destruct (meet (ty a) (ty b)) as [| |k] eqn:M; try discriminate. destruct (both_oper _ _ _ _ _ H) as (O & Fr & Hx & Hy & Tr).
      assert (ty_integer k = true) as Ik by (apply (Scalar_Proofs.holds_int k p Hx)).
      rewrite (CV p (snd (ty a)) sa k Ta Fa Ik), (CV q (snd (ty b)) sb k Tb Fb Ik), O. rewrite Tr.
      split; [split; [discriminate|]; split; [exact Da|]; split; [exact Db|]; split; discriminate|]. auto.
  - cbn [validate plain ideal_value] in *. destruct (validate vecs d) as [z|] eqn:Vd; [|discriminate].
    destruct (validate vecs a) as [x|] eqn:Va; [|discriminate]. destruct (validate vecs b) as [y|] eqn:Vb; [|discriminate].
    rewrite !andb_true_iff in P. destruct P as [[[Pd Pa] Pb] F].
    destruct (ideal_value types elem d) as [[c|]|]; try discriminate.
    destruct (ideal_value types elem a) as [ma|]; [|discriminate]. destruct (ideal_value types elem b) as [mb|]; [|destruct ma; discriminate].
    destruct (IHd _ eq_refl Pd (ex_intro _ z eq_refl)) as (Dd & Ed & _ & _).
    destruct (IHa _ eq_refl Pa (ex_intro _ x eq_refl)) as (Da & Ea & Fa & Ta). destruct (IHb _ eq_refl Pb (ex_intro _ y eq_refl)) as (Db & Eb & Fb & Tb).
    cbn [defined value etype snd]. rewrite Ea, Eb, Ed. cbn [machine].
    destruct ma as [p|sa p], mb as [q|sb q]; try discriminate.
    + assert (meet (ty a) (ty b) = TBit) as M. { unfold meet. rewrite <- Ta, <- Tb. destruct (fst (ty a)), (fst (ty b)); reflexivity. }
      rewrite M, <- Ta, <- Tb. unfold converted. cbn [ideal_type]. rewrite (vty_refl TBit). injection H as <-.
      destruct c; cbn; (split; [split; [discriminate|]; split; [exact Dd|]; split; [exact Da|]; split; [exact Db|]; split; discriminate|]); auto.
    + destruct (meet (ty a) (ty b)) as [| |k] eqn:M; try discriminate. destruct (holds k p) eqn:Hx; [|discriminate]. destruct (holds k q) eqn:Hy; [|discriminate]. injection H as <-.
      assert (ty_integer k = true) as Ik by (apply (Scalar_Proofs.holds_int k p Hx)).
      change (VInt p) with (VInt p). fold (machine (MInt sa p)). fold (machine (MInt sb q)).
      rewrite (CV p (snd (ty a)) sa k Ta Fa Ik), (CV q (snd (ty b)) sb k Tb Fb Ik).
      destruct c; cbn; (split; [split; [discriminate|]; split; [exact Dd|]; split; [exact Da|]; split; [exact Db|]; split; discriminate|]); auto.
Qed.
Theorem elementwise_integers e t n fuel m :
  validate vecs e = Some (true, t) -> is_operation e = true -> plain types e = true -> element_type t = true ->
  (forall j, In j (vectors_of e) -> v_size (vecs j) = n) -> 0 <= n < 2 ^ 30 -> bytes_of t n + 7 < 2 ^ 32 ->
  (forall i, Z.of_nat i < in_units n -> ideal_value types (in_lane vecs i) e = Some (m i)) -> n / 64 <= Z.of_nat fuel ->
  exists r, run_statement lib vecs fuel t (vemit e) = Ret (r, vecs) /\ v_ty r = t /\ v_size r = n /\
    forall i, Z.of_nat i < n -> nth_error (v_mem r) i = Some (machine (m i)).
Proof.
  intros V O P E S N B D F.
  destruct (elementwise e t n fuel V O P E S N B) as (r & R & Rt & Rs & _ & _ & Rv).
  { intros i Hi. apply (ideal_ok (in_lane vecs i) e (m i) (D i Hi) P). eauto. } { exact F. }
  exists r. split; [exact R|]. split; [exact Rt|]. split; [exact Rs|]. intros i Hi. destruct (Rv i Hi) as (v & Nv & Ev).
  pose proof (units_le n) as U. destruct (ideal_ok (in_lane vecs i) e (m i) (D i ltac:(lia)) P ltac:(eauto)) as (_ & Vi & _).
  rewrite (value_ext lib vecs e (element vecs i) (in_lane vecs i)) in Ev by (intros j Hj; unfold in_lane; rewrite (S j Hj), (proj2 (Z.ltb_lt _ _)) by exact Hi; reflexivity).
  congruence.
Qed.
End S.
