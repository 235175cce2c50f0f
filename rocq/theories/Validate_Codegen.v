(** The code generator succeeds exactly on the expressions and statements that have types. *)
From Coq Require Import Ascii String List Bool Arith ZArith Lia.
Import ListNotations.
From Verif Require Import Base Lexer_Model Lexer_Proofs Op_Model Op_Lemmas Number_Model Parser_Model Parser_Spec Parser_Print Ir_Model Codegen_Model Codegen_Spec Codegen_Scope Codegen_Lemmas Codegen_Expr Codegen_Shape Validate_Spec.
From Verif Require Codegen_Results Codegen_Results2.

(** *** What stays *)
Record grows (σ σ' : cg) : Prop := {
  g_objs : exists os, objs σ' = objs σ ++ os;
  g_named : named σ' = named σ;
  g_loops : loops σ' = loops σ;
  g_ret : ret_ty σ' = ret_ty σ;
  g_slot : ret_slot σ' = ret_slot σ }.
Lemma grows_refl σ : grows σ σ.
Proof. constructor; auto. exists []. now rewrite app_nil_r. Qed.
Lemma grows_trans a b c : grows a b -> grows b c -> grows a c.
Proof.
  intros [[o1 A] ? ? ? ?] [[o2 B] ? ? ? ?]. constructor; try congruence. exists (o1 ++ o2). rewrite B, A. now rewrite app_assoc.
Qed.
Lemma put_objs i σ : objs (put i σ) = objs σ.
Proof. unfold put. now destruct (nth_error _ _). Qed.
Lemma put_named i σ : named (put i σ) = named σ.
Proof. unfold put. now destruct (nth_error _ _). Qed.
Lemma put_loops i σ : loops (put i σ) = loops σ.
Proof. unfold put. now destruct (nth_error _ _). Qed.
Lemma put_ret i σ : ret_ty (put i σ) = ret_ty σ.
Proof. unfold put. now destruct (nth_error _ _). Qed.
Lemma put_slot i σ : ret_slot (put i σ) = ret_slot σ.
Proof. unfold put. now destruct (nth_error _ _). Qed.
Lemma ins_objs v b σ : objs (set_inserted v b σ) = objs σ.
Proof. unfold set_inserted. now destruct (nth_error _ _). Qed.
Lemma ins_named v b σ : named (set_inserted v b σ) = named σ.
Proof. unfold set_inserted. now destruct (nth_error _ _). Qed.
Lemma ins_loops v b σ : loops (set_inserted v b σ) = loops σ.
Proof. unfold set_inserted. now destruct (nth_error _ _). Qed.
Lemma ins_ret v b σ : ret_ty (set_inserted v b σ) = ret_ty σ.
Proof. unfold set_inserted. now destruct (nth_error _ _). Qed.
Lemma ins_slot v b σ : ret_slot (set_inserted v b σ) = ret_slot σ.
Proof. unfold set_inserted. now destruct (nth_error _ _). Qed.
Ltac frame := repeat (rewrite ?put_objs, ?put_named, ?put_loops, ?put_ret, ?put_slot, ?ins_objs, ?ins_named, ?ins_loops, ?ins_ret, ?ins_slot;
  cbn [objs named loops ret_ty ret_slot set_blks set_cur set_nreg set_nslot set_objs set_named set_loops]).
Ltac grow := constructor; frame; eauto.

Section Accept.
Variable llvm19 : bool.
Variable op_fun : optok -> vty -> option vty.
Variable fsig : text -> option (list vty * vty).
(** [strict]: no function returns void; then nothing is undefined. *)
Variable strict : bool.
Definition novoid (t : vty) : Prop := strict = true -> t <> TVoid.
Hypothesis op_fun_ok : forall op t r, op_fun op t = Some r -> novoid r.
Hypothesis fsig_ok : forall f ts r, fsig f = Some (ts, r) -> novoid r.
Hypothesis names : forall op, fsig (op_str op) = None.
Notation type_of := (type_of llvm19 op_fun fsig).
Notation op_type := (op_type llvm19 op_fun).

Definition fails {A} (o : outcome A) : Prop := match o with Err => True | UB => strict = false | _ => False end.
Lemma fails_bind {A B} (o : outcome A) (f : A -> outcome B) : fails o -> fails (do! x <- o; f x).
Proof. now destruct o. Qed.
Definition placed (t : vty) (l : loc) : Prop := match l with LNone => False | LSlot _ => t <> TVoid | LVal _ => True end.
Definition at_ (σ : cg) (id : nat) (t : vty) : Prop :=
  exists v, nth_error (objs σ) id = Some v /\ v_ty v = t /\ placed t (v_loc v) /\ novoid t.
Lemma at_grows σ σ' id t : grows σ σ' -> at_ σ id t -> at_ σ' id t.
Proof. intros [[os E] _ _ _ _] (v & H & R). exists v. split; [|exact R]. rewrite E, nth_error_app1; [assumption|]. eapply nth_error_lt; eauto. Qed.
(** A step that yields a value of type T if there is one, and fails otherwise *)
Definition decides (σ : cg) (o : outcome (nat * cg)) (T : option vty) : Prop :=
  match T with
  | Some t => exists id σ', o = Ret (id, σ') /\ grows σ σ' /\ at_ σ' id t
  | None => fails o
  end.
Lemma decides_grows σ σ1 o T : grows σ σ1 -> decides σ1 o T -> decides σ o T.
Proof. destruct T; cbn; [|auto]. intros G (id & σ' & E & G' & A). exists id, σ'. eauto using grows_trans. Qed.

Lemma load_ok σ id t : at_ σ id t -> exists o σ', load_value id σ = Ret (o, σ') /\ grows σ σ'.
Proof.
  intros (v & E & _ & L & _). unfold load_value, obj. rewrite E. cbn [obind]. destruct (v_loc v) as [|s|o]; [contradiction L| |].
  - eexists _, _. split; [reflexivity|]. grow. exists []. now rewrite app_nil_r.
  - eexists _, _. split; [reflexivity|]. apply grows_refl.
Qed.
Lemma new_ok σ t l : placed t l -> novoid t -> forall id σ', new_value t l σ = (id, σ') -> grows σ σ' /\ at_ σ' id t.
Proof.
  intros L N id σ' H. injection H as <- <-. split; [grow|]. exists (Val t l). cbn [objs set_objs]. rewrite nth_error_app2, Nat.sub_diag by lia. auto.
Qed.
Lemma void_fails σ id A (x : outcome A) : at_ σ id TVoid -> x = UB -> fails x.
Proof. intros (v & _ & _ & _ & N) ->. cbn. unfold novoid in N. destruct strict; auto. now elim (N eq_refl). Qed.
Lemma cast_decides σ id s t : at_ σ id s -> decides σ (cast_to id t σ) (if convertible s t then Some t else None).
Proof.
  intros A. destruct A as (v & E & Ety & L & N). unfold cast_to, obj, convertible. rewrite E. cbn [obind]. rewrite Ety. destruct (vty_eqb s t) eqn:Est.
  - apply vty_eqb_eq in Est. subst t. cbn. exists id, σ. split; [reflexivity|]. split; [apply grows_refl|]. exists v. auto.
  - cbn [orb]. destruct s as [| |n].
    + cbn [can_cast negb]. destruct t as [| |m]; [discriminate Est|exact I|]. apply (void_fails σ id); [|reflexivity]. exists v. auto.
    + cbn [can_cast]. rewrite Est. cbn. exact I.
    + destruct t as [| |m]; cbn [can_cast]; rewrite ?Est; cbn [negb]; [exact I|exact I|]. replace (vty_eqb (TNum n) TVoid) with false by reflexivity.
      destruct (load_ok σ id (TNum n)) as (o & σ1 & El & G). { exists v. auto. } rewrite El. cbn [obind new_reg]. cbn [decides].
      destruct (new_value (TNum m) (LVal (OReg (nreg σ1))) (put (Ins (IPrim (nreg σ1) (PCast (TNum n) (TNum m)) [o])) (set_nreg (S (nreg σ1)) σ1))) as [id' σ'] eqn:En.
      apply new_ok in En as [G2 A2]; [|exact I|discriminate]. exists id', σ'. split; [reflexivity|]. split; [|assumption].
      eapply grows_trans; [exact G|]. eapply grows_trans; [|exact G2]. grow. exists []. now rewrite app_nil_r.
Qed.
Lemma put_decides b op t res os σ : novoid res -> decides σ (put_op op_fun b op t res os σ) (if b then Some res else op_fun op t).
Proof.
  intros N. unfold put_op. cbn [new_reg]. destruct b.
  - destruct (new_value res (LVal (OReg (nreg σ))) (put (Ins (IPrim (nreg σ) (POp op t) os)) (set_nreg (S (nreg σ)) σ))) as [id' σ'] eqn:En.
    apply new_ok in En as [G2 A2]; [|exact I|assumption]. exists id', σ'. split; [reflexivity|]. split; [|assumption]. eapply grows_trans; [|exact G2]. grow. exists []. now rewrite app_nil_r.
  - destruct (op_fun op t) as [r|] eqn:Er; [|exact I].
    destruct (new_value r (LVal (OReg (nreg σ))) (put (Ins (IPrim (nreg σ) (PFun op t) os)) (set_nreg (S (nreg σ)) σ))) as [id' σ'] eqn:En.
    apply new_ok in En as [G2 A2]; [|exact I|eauto]. exists id', σ'. split; [reflexivity|]. split; [|assumption]. eapply grows_trans; [|exact G2]. grow. exists []. now rewrite app_nil_r.
Qed.

Lemma unary_decides op σ id s : operand_count op = Some 1 -> at_ σ id s -> decides σ (unary_op_ir llvm19 op_fun op id σ) (op_type op [s]).
Proof.
  intros Ho A. pose proof A as (v & E & Ety & L & N). unfold unary_op_ir, obj, Codegen_Scope.op_type. rewrite E. cbn [obind common forallb]. unfold convertible. rewrite Ety, vty_eqb_refl. cbn [orb andb].
  unfold result_type. destruct (vty_eqb s TVoid) eqn:Es. { apply vty_eqb_eq in Es. rewrite Es in A. cbn [decides]. eapply void_fails; [exact A|reflexivity]. }
  destruct (load_ok σ id s A) as (o & σ1 & El & G). rewrite El. cbn [obind]. eapply decides_grows; [exact G|]. rewrite (core_un llvm19 op s Ho).
  assert (comparison op = false) as -> by (destruct op; try discriminate Ho; reflexivity). now apply put_decides.
Qed.

Lemma normalize2 n m : normalize [TNum n; TNum m] = Ret (TNum (wider n m)).
Proof. unfold normalize. cbn [max_num]. rewrite wider_code. destruct (num_code n <? num_code m)%Z; reflexivity. Qed.
Lemma normalize3 a b c : normalize [TNum a; TNum b; TNum c] = Ret (TNum (wider a (wider b c))).
Proof.
  rewrite <- wider_assoc. unfold normalize. cbn [max_num]. rewrite (wider_code (wider a b)), (wider_code a b).
  destruct (num_code a <? num_code b)%Z; [destruct (num_code b <? num_code c)%Z|destruct (num_code a <? num_code c)%Z]; reflexivity.
Qed.
(** Operands of two types are brought to their common type. *)
Definition pair_of (σ : cg) (s t : vty) (l r : nat) : outcome (vty * nat * nat * cg) :=
  if vty_eqb s t then Ret (s, l, r, σ)
  else do! t <- normalize [s; t]; do! (l, σ) <- cast_to l t σ; do! (r, σ) <- cast_to r t σ; Ret (t, l, r, σ).
Lemma pair_ok σ s t l r : at_ σ l s -> at_ σ r t ->
  match common [s; t] with
  | Some c => convertible s c = true /\ convertible t c = true /\
      exists l' r' σ', pair_of σ s t l r = Ret (c, l', r', σ') /\ grows σ σ' /\ at_ σ' l' c /\ at_ σ' r' c /\ (s = c -> l' = l)
  | None => fails (pair_of σ s t l r)
  end.
Proof.
  intros Al Ar. unfold pair_of. cbn [common]. destruct (vty_eqb s t) eqn:E.
  - apply vty_eqb_eq in E. subst t. unfold convertible. rewrite vty_eqb_refl. repeat (split; [reflexivity|]). exists l, r, σ. split; [reflexivity|]. split; [apply grows_refl|]. auto.
  - destruct s as [| |n], t as [| |m]; try discriminate E; cbn [widest option_map];
      try (change (normalize _) with (@Err vty); exact I);
      try (change (normalize _) with (@UB vty); eapply void_fails; eauto; fail).
    + cbn [normalize max_num forallb can_cast andb obind]. pose proof (cast_decides σ l TVoid (TNum m) Al) as D. cbn [convertible vty_eqb decides] in D. change (vty_eqb TVoid (TNum m)) with false in D. cbn in D. now apply fails_bind.
    + cbn [normalize max_num forallb can_cast andb obind]. pose proof (cast_decides σ l (TNum n) (TNum n) Al) as D. unfold convertible in D. rewrite vty_eqb_refl in D. cbn [orb decides] in D. destruct D as (l' & σ1 & -> & G & A'). cbn [obind].
      pose proof (cast_decides σ1 r TVoid (TNum n) (at_grows _ _ _ _ G Ar)) as D. change (convertible TVoid (TNum n)) with false in D. cbn [decides] in D. now apply fails_bind.
    + rewrite normalize2. cbn [obind]. set (c := wider n m). assert (convertible (TNum n) (TNum c) = true /\ convertible (TNum m) (TNum c) = true) as [C1 C2] by (unfold convertible; rewrite !orb_true_r; auto).
      split; [assumption|]. split; [assumption|]. pose proof (cast_decides σ l (TNum n) (TNum c) Al) as D. rewrite C1 in D. destruct D as (l' & σ1 & E1 & G1 & A1). rewrite E1. cbn [obind].
      pose proof (cast_decides σ1 r (TNum m) (TNum c) (at_grows _ _ _ _ G1 Ar)) as D. rewrite C2 in D. destruct D as (r' & σ2 & E2 & G2 & A2). rewrite E2. cbn [obind].
      exists l', r', σ2. split; [reflexivity|]. split; [eapply grows_trans; eauto|]. split; [eapply at_grows; eauto|]. split; [assumption|].
      intros Ec. destruct Al as (v & Ev & Ety & _). rewrite (cast_same l (TNum c) σ v Ev) in E1; [congruence|]. congruence.
Qed.
Lemma binary_decides op σ l r s t : operand_count op = Some 2 -> plain_op op = (op, false) -> op <> OP_ASSIGN -> at_ σ l s -> at_ σ r t ->
  decides σ (binary_op_ir op_fun op l r σ) (op_type op [s; t]).
Proof.
  intros Ho Hp Hn Al Ar. unfold binary_op_ir. rewrite Hp. destruct (optok_eqb op OP_ASSIGN) eqn:Ea. { apply optok_eqb_eq in Ea. contradiction. }
  pose proof Al as (vl & El & Tl & _). pose proof Ar as (vr & Er & Tr & _). unfold obj. rewrite El, Er. cbn [obind]. rewrite Tl, Tr.
  pose proof (pair_ok σ s t l r Al Ar) as P. unfold Codegen_Scope.op_type. cbn [forallb].
  change (if vty_eqb s t then Ret (s, l, r, σ) else do! t0 <- normalize [s; t]; do! (l0, σ0) <- cast_to l t0 σ; do! (r0, σ1) <- cast_to r t0 σ0; Ret (t0, l0, r0, σ1)) with (pair_of σ s t l r).
  destruct (common [s; t]) as [c|]; [|now apply fails_bind]. destruct P as (C1 & C2 & l' & r' & σ1 & -> & G & A1 & A2 & _). rewrite C1, C2. cbn [andb obind]. unfold result_type.
  destruct (vty_eqb c TVoid) eqn:Ec. { apply vty_eqb_eq in Ec. rewrite Ec in A1. cbn [decides]. eapply void_fails; [exact A1|reflexivity]. }
  destruct (load_ok _ _ _ A1) as (lo & σ2 & -> & G2). cbn [obind]. destruct (load_ok _ _ _ (at_grows _ _ _ _ G2 A2)) as (ro & σ3 & -> & G3). cbn [obind].
  rewrite compare_table, (core_bin llvm19 op c Ho Hp). assert (novoid (if is_compare_op op then TBit else c)) as N. { destruct (is_compare_op op); [discriminate|]. destruct A1 as (? & _ & _ & _ & N). exact N. }
  pose proof (put_decides (bin_builtin op c) op c (if is_compare_op op then TBit else c) [lo; ro] σ3 N) as D.
  apply decides_grows with (σ1 := σ3). { eauto using grows_trans. }
  destruct (if bin_builtin op c then Some (if is_compare_op op then TBit else c) else op_fun op c) as [u|]; [|cbn [decides] in *; now apply fails_bind].
  destruct D as (id & σ4 & -> & G4 & A4). cbn [obind decides]. eauto 6.
Qed.

Lemma cond_decides σ a b c u s t : at_ σ a u -> at_ σ b s -> at_ σ c t ->
  decides σ (ternary_op_ir op_fun OP_CONDITIONAL a b c σ) (if vty_eqb u TBit then op_type OP_CONDITIONAL [s; t] else None).
Proof.
  intros Aa Ab Ac. unfold ternary_op_ir. pose proof Aa as (va & Ea & Ta & _). pose proof Ab as (vb & Eb & Tb & _). pose proof Ac as (vc & Ec & Tc & _). unfold obj. rewrite Ea, Eb, Ec. cbn [obind]. rewrite Ta, Tb, Tc.
  change (optok_eqb OP_CONDITIONAL OP_CONDITIONAL) with true. cbn match. destruct (vty_eqb u TBit); cbn [negb]; [|exact I].
  pose proof (pair_ok σ s t b c Ab Ac) as P. unfold Codegen_Scope.op_type. cbn [forallb].
  match goal with |- decides σ (obind ?x _) _ => replace x with (do! (t, b, c, σ) <- pair_of σ s t b c; Ret (t, a, b, c, σ)) end.
  2:{ unfold pair_of. destruct (vty_eqb s t); [reflexivity|]. destruct (normalize [s; t]) as [n| | |]; try reflexivity. cbn [obind]. destruct (cast_to b n σ) as [[? ?]| | |]; try reflexivity. cbn [obind]. destruct (cast_to c n c0) as [[? ?]| | |]; reflexivity. }
  destruct (common [s; t]) as [k|]; [|cbn [decides]; do 2 apply fails_bind; assumption]. destruct P as (C1 & C2 & b' & c' & σ1 & -> & G & A1 & A2 & _). rewrite C1, C2. cbn [andb obind]. unfold result_type.
  destruct (vty_eqb k TVoid) eqn:Ek. { apply vty_eqb_eq in Ek. rewrite Ek in A1. cbn [decides]. eapply void_fails; [exact A1|reflexivity]. }
  destruct (load_ok _ _ _ (at_grows _ _ _ _ G Aa)) as (ao & σ2 & -> & G2). cbn [obind]. destruct (load_ok _ _ _ (at_grows _ _ _ _ G2 A1)) as (bo & σ3 & -> & G3). cbn [obind].
  destruct (load_ok _ _ _ (at_grows _ _ _ _ G3 (at_grows _ _ _ _ G2 A2))) as (co & σ4 & -> & G4). cbn [obind].
  apply decides_grows with (σ1 := σ4). { eauto using grows_trans. }
  replace (core llvm19 OP_CONDITIONAL k) with true by (unfold core; cbn; reflexivity). change (comparison OP_CONDITIONAL) with false. change (tern_builtin OP_CONDITIONAL k) with true.
  apply (put_decides true). destruct A1 as (? & _ & _ & _ & N). exact N.
Qed.

Lemma cast_fails_bind {B} σ id s t (f : nat * cg -> outcome B) : at_ σ id s -> convertible s t = false -> fails (do! x <- cast_to id t σ; f x).
Proof. intros A C. pose proof (cast_decides σ id s t A) as D. rewrite C in D. now apply fails_bind. Qed.
Lemma ternary_decides op σ a b c u s t : operand_count op = Some 3 -> op <> OP_CONDITIONAL -> at_ σ a u -> at_ σ b s -> at_ σ c t ->
  decides σ (ternary_op_ir op_fun op a b c σ) (op_type op [u; s; t]).
Proof.
  intros Ho Hn Aa Ab Ac. unfold ternary_op_ir. pose proof Aa as (va & Ea & Ta & _). pose proof Ab as (vb & Eb & Tb & _). pose proof Ac as (vc & Ec & Tc & _). unfold obj. rewrite Ea, Eb, Ec. cbn [obind]. rewrite Ta, Tb, Tc.
  destruct (optok_eqb op OP_CONDITIONAL) eqn:Eo. { apply optok_eqb_eq in Eo. contradiction. }
  assert (forall x y z : vty, (forall n m k, ~ (x = TNum n /\ y = TNum m /\ z = TNum k)) -> common [x; y; z] = None) as Cn.
  { intros x y z H. cbn [common widest]. destruct x as [| |n], y as [| |m], z as [| |k]; try reflexivity. now elim (H n m k). }
  unfold Codegen_Scope.op_type.
  assert ((exists n m k, u = TNum n /\ s = TNum m /\ t = TNum k) \/ (forall n m k, ~ (u = TNum n /\ s = TNum m /\ t = TNum k))) as [(n & m & k & -> & -> & ->)|H].
  { destruct u as [| |n], s as [| |m], t as [| |k]; try (right; intros ? ? ? (? & ? & ?); discriminate). left. eauto 6. }
  - rewrite normalize3. cbn [obind]. cbn [common widest option_map forallb]. set (w := wider n (wider m k)).
    assert (forall x, convertible (TNum x) (TNum w) = true) as C by (intros x; unfold convertible; now rewrite orb_true_r). rewrite !C. cbn [andb].
    pose proof (cast_decides σ b (TNum m) (TNum w) Ab) as D. rewrite C in D. destruct D as (b' & σ1 & -> & G1 & A1). cbn [obind].
    pose proof (cast_decides σ1 c (TNum k) (TNum w) (at_grows _ _ _ _ G1 Ac)) as D. rewrite C in D. destruct D as (c' & σ2 & -> & G2 & A2). cbn [obind].
    pose proof (cast_decides σ2 a (TNum n) (TNum w) (at_grows _ _ _ _ G2 (at_grows _ _ _ _ G1 Aa))) as D. rewrite C in D. destruct D as (a' & σ3 & -> & G3 & A3). cbn [obind].
    unfold result_type. change (vty_eqb (TNum w) TVoid) with false. cbn match.
    destruct (load_ok _ _ _ A3) as (ao & σ4 & -> & G4). cbn [obind]. destruct (load_ok σ4 b' (TNum w)) as (bo & σ5 & -> & G5). { eauto using at_grows. } cbn [obind].
    destruct (load_ok σ5 c' (TNum w)) as (co & σ6 & -> & G6). { eauto using at_grows. } cbn [obind]. apply decides_grows with (σ1 := σ6). { eauto 8 using grows_trans. }
    rewrite (core_tern llvm19 op (TNum w) Ho). assert (comparison op = false) as -> by (destruct op; try discriminate Ho; reflexivity). apply put_decides. discriminate.
  - rewrite (Cn _ _ _ H). cbn [decides].
    destruct (normalize [u; s; t]) as [w| | |] eqn:En; cbn [obind].
    2:{ exact I. }
    2:{ unfold normalize in En. destruct u as [| |n], s as [| |m], t as [| |k]; cbn [max_num forallb can_cast andb] in En; try discriminate En; try (now elim (H n m k)); try (eapply void_fails; [|reflexivity]; eassumption); destruct (num_code _ <? num_code _)%Z; discriminate En. }
    2:{ unfold normalize in En. destruct (forallb _ _); [|discriminate]. destruct (max_num None _); discriminate. }
    assert (exists w', w = TNum w') as (w' & ->). { unfold normalize in En. destruct (forallb _ _); [|discriminate]. destruct (max_num None _); [|discriminate]. injection En as <-. eauto. }
    destruct (convertible s (TNum w')) eqn:C2; [|apply fails_bind; eapply cast_fails_bind; eassumption].
    pose proof (cast_decides σ b s (TNum w') Ab) as D. rewrite C2 in D. destruct D as (b' & σ1 & -> & G1 & A1). cbn [obind].
    destruct (convertible t (TNum w')) eqn:C3; [|apply fails_bind; eapply cast_fails_bind; [eapply at_grows; eassumption|assumption]].
    pose proof (cast_decides σ1 c t (TNum w') (at_grows _ _ _ _ G1 Ac)) as D. rewrite C3 in D. destruct D as (c' & σ2 & -> & G2 & A2). cbn [obind].
    destruct (convertible u (TNum w')) eqn:C1; [|apply fails_bind; eapply cast_fails_bind; [eapply at_grows; [|eapply at_grows]; eassumption|assumption]].
    exfalso. destruct u as [| |n]; try discriminate C1. destruct s as [| |m]; try discriminate C2. destruct t as [| |k]; try discriminate C3. now elim (H n m k).
Qed.

Lemma call_args_decides ids : forall ts ps σ, Forall2 (at_ σ) ids ts ->
  if (length ts =? length ps) && forallb (fun p => convertible (fst p) (snd p)) (combine ts ps)
  then exists os σ', call_args ids ps σ = Ret (os, σ') /\ grows σ σ' else fails (call_args ids ps σ).
Proof.
  induction ids as [|id ids IH]; intros ts ps σ F; inversion F as [|? t ? ts' A F']; subst.
  - destruct ps; cbn; [|exact I]. eexists _, _. split; [reflexivity|apply grows_refl].
  - destruct ps as [|p ps]; cbn [length combine forallb fst snd call_args]; [exact I|]. change (S (length ts') =? S (length ps)) with (length ts' =? length ps).
    pose proof (cast_decides σ id t p A) as D. destruct (convertible t p); cbn [andb].
    + destruct D as (id' & σ1 & -> & G1 & A1). cbn [obind]. destruct (load_ok _ _ _ A1) as (o & σ2 & -> & G2). cbn [obind].
      assert (Forall2 (at_ σ2) ids ts') as F2. { clear -F' G1 G2. induction F'; constructor; eauto using at_grows. }
      specialize (IH ts' ps σ2 F2). destruct ((length ts' =? length ps) && _).
      * destruct IH as (os & σ3 & -> & G3). cbn [obind]. eexists _, _. split; [reflexivity|]. eauto using grows_trans.
      * now apply fails_bind.
    + rewrite andb_false_r. now apply fails_bind.
Qed.
Lemma call_decides f ids ts σ : Forall2 (at_ σ) ids ts ->
  decides σ (call_function fsig f ids σ)
    (match fsig f with
     | Some (ps, r) => if (length ts =? length ps) && forallb (fun p => convertible (fst p) (snd p)) (combine ts ps) then Some r else None
     | None => None
     end).
Proof.
  intros F. unfold call_function. destruct (fsig f) as [[ps r]|] eqn:Ef; [|exact I]. pose proof (call_args_decides ids ts ps σ F) as D. destruct ((length ts =? length ps) && _).
  - destruct D as (os & σ1 & -> & G1). cbn [obind new_reg].
    destruct (new_value r (LVal (OReg (nreg σ1))) (put (Ins (ICall (nreg σ1) f os)) (set_nreg (S (nreg σ1)) σ1))) as [id' σ'] eqn:En.
    apply new_ok in En as [G2 A2]; [|exact I|eauto]. exists id', σ'. split; [reflexivity|]. split; [|assumption]. eapply grows_trans; [exact G1|]. eapply grows_trans; [|exact G2]. grow. exists []. now rewrite app_nil_r.
  - cbn [decides]. now apply fails_bind.
Qed.

(** *** The second phase *)
Fixpoint ttype (O : list value) (t : vt) : option vty :=
  match t with
  | VLeaf id => option_map v_ty (nth_error O id)
  | VUn op a => match ttype O a with Some s => op_type op [s] | None => None end
  | VBin op a b => match ttype O a, ttype O b with Some s, Some t => op_type op [s; t] | _, _ => None end
  | VTern op a b c =>
      match ttype O a, ttype O b, ttype O c with
      | Some u, Some s, Some t => if optok_eqb op OP_CONDITIONAL then if vty_eqb u TBit then op_type OP_CONDITIONAL [s; t] else None else op_type op [u; s; t]
      | _, _, _ => None
      end
  end.
Fixpoint lv (σ : cg) (t : vt) : Prop :=
  match t with
  | VLeaf id => exists ty, at_ σ id ty
  | VUn _ a => lv σ a
  | VBin _ a b => lv σ a /\ lv σ b
  | VTern _ a b c => lv σ a /\ lv σ b /\ lv σ c
  end.
Lemma lv_grows σ σ' t : grows σ σ' -> lv σ t -> lv σ' t.
Proof. intros G. induction t; cbn [lv]; intuition. destruct H as (ty & A). exists ty. eapply at_grows; eauto. Qed.
Lemma vtok_grows σ σ' t : grows σ σ' -> vtok (objs σ) t -> vtok (objs σ') t.
Proof. intros [[os ->] _ _ _ _]. apply (@vtok_app nat (fun _ _ _ => None) op_fun). Qed.
Lemma ttype_grows σ σ' t : grows σ σ' -> vtok (objs σ) t -> ttype (objs σ') t = ttype (objs σ) t.
Proof.
  intros [[os ->] _ _ _ _]. induction t; cbn [vtok ttype]; intros H; repeat match goal with H : _ /\ _ |- _ => destruct H end.
  - now rewrite nth_error_app1.
  - now rewrite IHt.
  - now rewrite IHt1, IHt2.
  - now rewrite IHt1, IHt2, IHt3.
Qed.
Notation second := (second llvm19 op_fun).
Lemma second_decides t : forall σ, vtok (objs σ) t -> lv σ t -> decides σ (second t σ) (ttype (objs σ) t).
Proof.
  induction t as [id|op a IHa|op a IHa b IHb|op a IHa b IHb c IHc]; intros σ Hv Hl; cbn [vtok lv ttype Codegen_Expr.second] in *.
  - destruct Hl as (ty & A). pose proof A as (v & E & T & _). rewrite E. cbn. rewrite T. exists id, σ. split; [reflexivity|]. split; [apply grows_refl|assumption].
  - destruct Hv as [Ho Hv]. specialize (IHa σ Hv Hl). destruct (ttype (objs σ) a) as [s|]; [|cbn [decides]; now apply fails_bind]. destruct IHa as (i & σ1 & E & G & A). rewrite E. cbn [obind]. eapply decides_grows; [exact G|]. now apply unary_decides.
  - destruct Hv as (Ho & Hp & Hn & Ha & Hb). destruct Hl as [La Lb]. specialize (IHa σ Ha La). destruct (ttype (objs σ) a) as [s|]; [|cbn [decides]; now apply fails_bind]. destruct IHa as (i & σ1 & E & G & A). rewrite E. cbn [obind].
    specialize (IHb σ1 (vtok_grows _ _ _ G Hb) (lv_grows _ _ _ G Lb)). rewrite (ttype_grows _ _ _ G Hb) in IHb. destruct (ttype (objs σ) b) as [t|]; [|cbn [decides]; now apply fails_bind]. destruct IHb as (j & σ2 & E2 & G2 & A2). rewrite E2. cbn [obind].
    eapply decides_grows; [eapply grows_trans; eassumption|]. apply binary_decides; auto. eapply at_grows; eauto.
  - destruct Hv as (Ho & Ha & Hb & Hc). destruct Hl as (La & Lb & Lc). specialize (IHa σ Ha La). destruct (ttype (objs σ) a) as [s|]; [|cbn [decides]; now apply fails_bind]. destruct IHa as (i & σ1 & E & G & A). rewrite E. cbn [obind].
    specialize (IHb σ1 (vtok_grows _ _ _ G Hb) (lv_grows _ _ _ G Lb)). rewrite (ttype_grows _ _ _ G Hb) in IHb. destruct (ttype (objs σ) b) as [t|]; [|cbn [decides]; now apply fails_bind]. destruct IHb as (j & σ2 & E2 & G2 & A2). rewrite E2. cbn [obind].
    pose proof (grows_trans _ _ _ G G2) as G12.
    specialize (IHc σ2 (vtok_grows _ _ _ G12 Hc) (lv_grows _ _ _ G12 Lc)). rewrite (ttype_grows _ _ _ G12 Hc) in IHc. destruct (ttype (objs σ) c) as [u|]; [|cbn [decides]; now apply fails_bind]. destruct IHc as (k & σ3 & E3 & G3 & A3). rewrite E3. cbn [obind].
    eapply decides_grows; [eapply grows_trans; eassumption|]. pose proof (at_grows _ _ _ _ (grows_trans _ _ _ G2 G3) A) as A1. pose proof (at_grows _ _ _ _ G3 A2) as A2'.
    destruct (optok_eqb op OP_CONDITIONAL) eqn:Eo.
    + apply optok_eqb_eq in Eo. subst op. now apply cond_decides.
    + apply ternary_decides; auto. intros ->. discriminate Eo.
Qed.

(** *** The first phase *)
Notation bnode := (build_node llvm19 op_fun fsig).
Notation bnodes := (build_nodes bnode).
Section First.
Variable Γ : text -> option vty.
(** The names that occur *)
Variable X0 : text -> Prop.
Definition occurs (e : expr) : Prop := forall x, In x (reads e) -> X0 x.
Definition scope (σ : cg) : Prop := forall x, X0 x ->
  match find_text (named σ) x, Γ x with Some id, Some t => at_ σ id t | None, None => True | _, _ => False end.
Lemma scope_grows σ σ' : grows σ σ' -> scope σ -> scope σ'.
Proof. intros G H x Hx. specialize (H x Hx). rewrite (g_named _ _ G). destruct (find_text (named σ) x), (Γ x); auto. eapply at_grows; eauto. Qed.
Definition fit (e : expr) : Prop := strict = true -> within (fun _ _ => true) e = true.
Lemma bnodes_app ns ms σ : bnodes (ns ++ ms) σ = do! (es, σ1) <- bnodes ns σ; do! (fs, σ2) <- bnodes ms σ1; Ret (es ++ fs, σ2).
Proof.
  revert σ. induction ns as [|n ns IH]; intros σ; cbn [app build_nodes obind].
  - destruct (bnodes ms σ) as [[? ?]| | |]; reflexivity.
  - destruct (bnode n σ) as [[x σ1]| | |]; try reflexivity. cbn [obind]. rewrite IH. destruct (bnodes ns σ1) as [[es σ2]| | |]; try reflexivity. cbn [obind].
    destruct (bnodes ms σ2) as [[? ?]| | |]; reflexivity.
Qed.
Definition first (σ : cg) (ns : list node) (T : option vty) : Prop :=
  (T = None /\ fails (bnodes ns σ)) \/
  exists t σ1, bnodes ns σ = Ret (post t, σ1) /\ grows σ σ1 /\ vtok (objs σ1) t /\ lv σ1 t /\ ttype (objs σ1) t = T.
Lemma first_rpn σ ns T : first σ ns T -> decides σ (build_rpn llvm19 op_fun fsig ns σ) T.
Proof.
  intros [[-> F]|(t & σ1 & E & G & V & L & ET)]; unfold build_rpn, build_rpn_with.
  - cbn [decides]. now apply fails_bind.
  - rewrite E. cbn [obind]. unfold eval_stack. rewrite <- (app_nil_r (post t)), (eval_nodes_post _ _ _ _ _ _ _ V).
    pose proof (second_decides t σ1 V L) as D. rewrite ET in D. destruct T as [ty|].
    + destruct D as (id & σ2 & -> & G2 & A). cbn [obind eval_nodes]. exists id, σ2. split; [reflexivity|]. split; [eapply grows_trans; eauto|assumption].
    + cbn [decides] in *. do 2 apply fails_bind. assumption.
Qed.
Lemma first_leaf σ n (o : outcome (nat * cg)) T : (bnode n σ = do! (id, σ) <- o; Ret (E_val id, σ)) -> decides σ o T -> first σ [n] T.
Proof.
  intros E D. unfold first. cbn [build_nodes]. rewrite E. destruct T as [t|].
  - right. destruct D as (id & σ1 & -> & G & A). cbn [obind]. exists (VLeaf id), σ1. split; [reflexivity|]. split; [assumption|]. pose proof A as (v & En & Et & _). split; [cbn; eapply nth_error_lt; eauto|].
    split; [cbn; eauto|]. cbn [ttype]. rewrite En. cbn. congruence.
  - left. split; [reflexivity|]. cbn [decides] in D. do 2 apply fails_bind. assumption.
Qed.
Lemma new_decides σ t l : placed t l -> novoid t -> decides σ (Ret (new_value t l σ)) (Some t).
Proof. intros P N. destruct (new_value t l σ) as [id σ'] eqn:E. exists id, σ'. split; [reflexivity|]. eapply new_ok; eauto. Qed.
Lemma first_un σ ns op T : operand_count op = Some 1 -> first σ ns T -> first σ (ns ++ [N_op op]) (match T with Some s => op_type op [s] | None => None end).
Proof.
  intros Ho H. unfold first. rewrite bnodes_app. destruct H as [[-> F]|(t & σ1 & E & G & V & L & ET)].
  - left. split; [reflexivity|]. now apply fails_bind.
  - right. rewrite E. cbn [obind build_nodes build_node]. exists (VUn op t), σ1. split; [reflexivity|]. split; [assumption|]. split; [split; assumption|]. split; [assumption|]. cbn [ttype]. now rewrite ET.
Qed.
Lemma first_bin σ ns ms op T U : operand_count op = Some 2 -> plain_op op = (op, false) -> op <> OP_ASSIGN -> first σ ns T -> (forall σ1, grows σ σ1 -> first σ1 ms U) ->
  first σ (ns ++ ms ++ [N_op op]) (match T, U with Some s, Some t => op_type op [s; t] | _, _ => None end).
Proof.
  intros Ho Hp Hn H H2. unfold first. rewrite bnodes_app. destruct H as [[-> F]|(t & σ1 & E & G & V & L & ET)].
  - left. split; [reflexivity|]. now apply fails_bind.
  - rewrite E. cbn [obind]. rewrite bnodes_app. destruct (H2 σ1 G) as [[-> F]|(u & σ2 & E2 & G2 & V2 & L2 & EU)].
    + left. split; [now destruct T|]. do 2 apply fails_bind. assumption.
    + right. rewrite E2. cbn [obind build_nodes build_node]. exists (VBin op t u), σ2. split; [reflexivity|]. split; [eapply grows_trans; eauto|]. split; [cbn [vtok]; repeat split; auto; eapply vtok_grows; eauto|]. split; [split; [eapply lv_grows; eauto|assumption]|].
      cbn [ttype]. rewrite (ttype_grows _ _ _ G2 V), ET, EU. reflexivity.
Qed.
Lemma first_tern σ ns ms ls op T U W : operand_count op = Some 3 -> first σ ns T -> (forall σ1, grows σ σ1 -> first σ1 ms U) -> (forall σ1, grows σ σ1 -> first σ1 ls W) ->
  first σ (ns ++ ms ++ ls ++ [N_op op]) (match T, U, W with Some u, Some s, Some t => if optok_eqb op OP_CONDITIONAL then if vty_eqb u TBit then op_type OP_CONDITIONAL [s; t] else None else op_type op [u; s; t] | _, _, _ => None end).
Proof.
  intros Ho H H2 H3. unfold first. rewrite bnodes_app. destruct H as [[-> F]|(t & σ1 & E & G & V & L & ET)].
  - left. split; [reflexivity|]. now apply fails_bind.
  - rewrite E. cbn [obind]. rewrite bnodes_app. destruct (H2 σ1 G) as [[-> F]|(u & σ2 & E2 & G2 & V2 & L2 & EU)].
    + left. split; [now destruct T|]. do 2 apply fails_bind. assumption.
    + rewrite E2. cbn [obind]. rewrite bnodes_app. pose proof (grows_trans _ _ _ G G2) as G12. destruct (H3 σ2 G12) as [[-> F]|(w & σ3 & E3 & G3 & V3 & L3 & EW)].
      * left. split; [now destruct T, U|]. do 3 apply fails_bind. assumption.
      * right. rewrite E3. cbn [obind build_nodes build_node]. exists (VTern op t u w), σ3. pose proof (grows_trans _ _ _ G2 G3) as G23. split; [reflexivity|]. split; [eapply grows_trans; eauto|].
        split; [cbn [vtok]; repeat split; auto; [exact (vtok_grows _ _ _ G23 V)|exact (vtok_grows _ _ _ G3 V2)]|]. split; [cbn [lv]; split; [exact (lv_grows _ _ _ G23 L)|split; [exact (lv_grows _ _ _ G3 L2)|assumption]]|].
        cbn [ttype]. rewrite (ttype_grows _ _ _ G23 V), (ttype_grows _ _ _ G3 V2), ET, EU, EW. reflexivity.
Qed.

Lemma args_decide es : Forall (fun e => pure e = true -> fit e -> occurs e -> forall σ, scope σ -> first σ (emitE e) (type_of Γ e)) es ->
  forallb pure es = true -> (strict = true -> forallb (within (fun _ _ => true)) es = true) -> (forall x, In x (flat_map reads es) -> X0 x) -> forall σ, scope σ ->
  match all_some (map (type_of Γ) es) with
  | Some ts => exists ids σ', build_args llvm19 op_fun bnode (map emitE es) σ = Ret (ids, σ') /\ grows σ σ' /\ Forall2 (at_ σ') ids ts
  | None => fails (build_args llvm19 op_fun bnode (map emitE es) σ)
  end.
Proof.
  induction 1 as [|e es H _ IH]; intros Hp Hf Ho σ Sc; cbn [map all_some build_args].
  - exists [], σ. split; [reflexivity|]. split; [apply grows_refl|constructor].
  - cbn [forallb] in Hp. apply andb_true_iff in Hp as [P1 P2]. assert (fit e) as F1. { intros St. specialize (Hf St). cbn in Hf. now apply andb_true_iff in Hf. }
    assert (strict = true -> forallb (within (fun _ _ => true)) es = true) as F2. { intros St. specialize (Hf St). cbn in Hf. now apply andb_true_iff in Hf. }
    assert (occurs e) as O1 by (intros x Hx; apply Ho; cbn [flat_map]; apply in_app_iff; auto). assert (forall x, In x (flat_map reads es) -> X0 x) as O2 by (intros x Hx; apply Ho; cbn [flat_map]; apply in_app_iff; auto).
    pose proof (first_rpn _ _ _ (H P1 F1 O1 σ Sc)) as D. unfold build_rpn in D. destruct (type_of Γ e) as [t|]; [|cbn [decides] in D; now apply fails_bind].
    destruct D as (id & σ1 & -> & G & A). cbn [obind]. specialize (IH P2 F2 O2 σ1 (scope_grows _ _ G Sc)). destruct (all_some (map (type_of Γ) es)) as [ts|]; [|now apply fails_bind].
    destruct IH as (ids & σ2 & -> & G2 & F). cbn [obind]. exists (id :: ids), σ2. split; [reflexivity|]. split; [eapply grows_trans; eauto|]. constructor; [eapply at_grows; eauto|assumption].
Qed.
Lemma first_decides : forall e, pure e = true -> fit e -> occurs e -> forall σ, scope σ -> first σ (emitE e) (type_of Γ e).
Proof.
  apply (expr_ind2 (fun e => pure e = true -> fit e -> occurs e -> forall σ, scope σ -> first σ (emitE e) (type_of Γ e)) (fun _ => True)); try (intros; exact I).
  - intros b _ _ _ σ _. cbn [emitE Codegen_Scope.type_of]. eapply first_leaf; [|apply (new_decides σ TBit (LVal (OConst (KBool b)))); [exact I|discriminate]]. reflexivity.
  - intros v ty _ F _ σ _. cbn [emitE Codegen_Scope.type_of]. unfold fit in F. cbn [within] in F. destruct (build_const (v, ty)) as [c| | |] eqn:E.
    + eapply first_leaf with (o := Ret (new_value (TNum (const_ty c)) (LVal (OConst (KNum c))) σ)). { cbn [build_node]. rewrite E. reflexivity. }
      replace (match c with CInt t _ | CFloat t _ => Some (TNum t) end) with (Some (TNum (const_ty c))) by (destruct c; reflexivity). apply new_decides; [exact I|discriminate].
    + left. split; [reflexivity|]. cbn [build_nodes build_node]. rewrite E. exact I.
    + left. split; [reflexivity|]. cbn [build_nodes build_node]. rewrite E. cbn. destruct strict; auto. specialize (F eq_refl). discriminate F.
    + elim (Codegen_Results2.const_total _ E).
  - discriminate.
  - intros x _ _ Oc σ Sc. cbn [emitE Codegen_Scope.type_of]. eapply first_leaf; [reflexivity|]. unfold get_local_var. specialize (Sc x (Oc x (or_introl eq_refl))). destruct (find_text (named σ) x) as [id|], (Γ x) as [t|]; try contradiction.
    + exists id, σ. split; [reflexivity|]. split; [apply grows_refl|assumption].
    + destruct (text_eqb x (lit "pi")); cbn [orb]; [apply new_decides; [exact I|discriminate]|]. destruct (text_eqb x (lit "e")); [apply new_decides; [exact I|discriminate]|]. exact I.
  - intros f es HF Hp F Oc σ Sc. cbn [pure] in Hp. apply andb_true_iff in Hp as [Hp Hk].
    assert (strict = true -> forallb (within (fun _ _ => true)) es = true) as F2. { intros St. specialize (F St). cbn in F. now apply andb_true_iff in F. }
    cbn [emitE Codegen_Scope.type_of]. rewrite builtin_op_table. destruct (find_text function_operators f) as [[op k]|] eqn:Ef; cbn [option_map fst].
    + apply Nat.eqb_eq in Hk. pose proof (function_arity _ _ _ Ef) as Ho. destruct (function_not_assign _ _ _ Ef) as (Hpl & Hna & Hnc).
      assert (forall e, In e es -> forall σ, scope σ -> first σ (emitE e) (type_of Γ e)) as Fa.
      { intros e He σ' Sc'. rewrite Forall_forall in HF. apply HF; auto. - rewrite forallb_forall in Hp. auto. - intros St. specialize (F2 St). rewrite forallb_forall in F2. auto. - intros x Hx. apply Oc. cbn [reads]. apply in_flat_map. eauto. }
      assert (k = 1 \/ k = 2 \/ k = 3) as K. { clear -Ef. apply find_text_in in Ef. cbn in Ef. repeat (destruct Ef as [Ef|Ef]; [injection Ef as _ _ <-; auto|]). contradiction. }
      destruct K as [-> |[-> | ->]].
      * destruct es as [|a [|]]; try discriminate Hk. cbn [flat_map map all_some]. rewrite app_nil_r. pose proof (first_un σ _ op _ Ho (Fa a (or_introl eq_refl) σ Sc)) as D. destruct (type_of Γ a); exact D.
      * destruct es as [|a [|b [|]]]; try discriminate Hk. cbn [flat_map map all_some]. rewrite app_nil_r, <- app_assoc.
        pose proof (first_bin σ _ (emitE b) op _ (type_of Γ b) Ho Hpl Hna (Fa a (or_introl eq_refl) σ Sc) (fun σ1 G => Fa b (or_intror (or_introl eq_refl)) σ1 (scope_grows _ _ G Sc))) as D. destruct (type_of Γ a), (type_of Γ b); exact D.
      * destruct es as [|a [|b [|c [|]]]]; try discriminate Hk. cbn [flat_map map all_some]. rewrite app_nil_r, <- !app_assoc.
        pose proof (first_tern σ _ (emitE b) (emitE c) op _ (type_of Γ b) (type_of Γ c) Ho (Fa a (or_introl eq_refl) σ Sc) (fun σ1 G => Fa b (or_intror (or_introl eq_refl)) σ1 (scope_grows _ _ G Sc)) (fun σ1 G => Fa c (or_intror (or_intror (or_introl eq_refl))) σ1 (scope_grows _ _ G Sc))) as D.
        assert (optok_eqb op OP_CONDITIONAL = false) as Ec. { destruct (optok_eqb op OP_CONDITIONAL) eqn:Ec; auto. apply optok_eqb_eq in Ec. contradiction. } rewrite Ec in D.
        destruct (type_of Γ a), (type_of Γ b), (type_of Γ c); exact D.
    + pose proof (args_decide es HF Hp F2 Oc σ Sc) as D. destruct (other_name f) eqn:Eo.
      * left. split; [|exact I]. unfold other_name in Eo. apply existsb_exists in Eo as (op & _ & Eo). apply text_eqb_eq in Eo. subst f. rewrite names. destruct (all_some _); reflexivity.
      * destruct (all_some (map (type_of Γ) es)) as [ts|].
        -- destruct D as (ids & σ1 & E & G & A). pose proof (call_decides f ids ts σ1 A) as D.
           apply (first_leaf σ _ (call_function fsig f ids σ1)); [|eapply decides_grows; eauto]. cbn [build_node]. rewrite E. reflexivity.
        -- left. split; [reflexivity|]. cbn [build_nodes build_node]. do 2 apply fails_bind. assumption.
  - discriminate.
  - discriminate.
  - discriminate.
  - intros op a IH Hp F Oc σ Sc. cbn [pure] in Hp. apply andb_true_iff in Hp as [Hop Hp]. cbn [emitE Codegen_Scope.type_of]. apply first_un; [now apply prefix_arity|]. apply IH; auto.
  - intros op a b IHa IHb Hp F Oc σ Sc. cbn [pure] in Hp. apply andb_true_iff in Hp as [Hp Pb]. apply andb_true_iff in Hp as [Hop Pa]. destruct (infix_arity _ Hop) as (Ho & Hpl & Hna).
    assert (fit a /\ fit b) as [Fa Fb]. { split; intros St; specialize (F St); cbn in F; now apply andb_true_iff in F. }
    assert (occurs a /\ occurs b) as [Oa Ob]. { split; intros x Hx; apply Oc; cbn [reads]; apply in_app_iff; auto. }
    cbn [emitE Codegen_Scope.type_of]. apply first_bin; auto. intros σ1 G. apply IHb; auto. eapply scope_grows; eauto.
  - intros c a b IHc IHa IHb Hp F Oc σ Sc. cbn [pure] in Hp. apply andb_true_iff in Hp as [Hp Pb]. apply andb_true_iff in Hp as [Pc Pa].
    assert (fit c /\ fit a /\ fit b) as (Fc & Fa & Fb). { split; [|split]; intros St; specialize (F St); cbn in F; apply andb_true_iff in F as [F ?]; apply andb_true_iff in F as [F ?]; auto. }
    assert (occurs c /\ occurs a /\ occurs b) as (Occ & Oa & Ob). { split; [|split]; intros x Hx; apply Oc; cbn [reads]; rewrite !in_app_iff; auto. }
    cbn [emitE Codegen_Scope.type_of]. apply (first_tern σ (emitE c) (emitE a) (emitE b) OP_CONDITIONAL); auto; intros σ1 G; [apply IHa|apply IHb]; auto; eapply scope_grows; eauto.
Qed.
Lemma expr_decides o σ : pure (denote o) = true -> fit (denote o) -> occurs (denote o) -> scope σ -> decides σ (build_expr llvm19 op_fun fsig o σ) (type_of Γ (denote o)).
Proof. intros Hp F Oc Sc. unfold build_expr. rewrite emit_denote. apply first_rpn. now apply first_decides. Qed.
End First.

(** *** Statements *)
Definition gexpr (Γ : ctx) (e : expr) : option ctx :=
  match e with
  | EBin OP_ASSIGN (EDef x) a =>
      match type_of Γ a with
      | Some t => if vty_eqb t TVoid then None else Some (match Γ x with Some _ => Γ | None => extend Γ x t end)
      | None => None
      end
  | EBin OP_ASSIGN (EVar x) a =>
      match Γ x, type_of Γ a with Some s, Some t => if vty_eqb s t then Some Γ else None | _, _ => None end
  | EBin op (EVar x) a =>
      match find (fun p => optok_eqb (fst p) op) compound with
      | Some (_, op) =>
          match Γ x, type_of Γ (EBin op (EVar x) a) with Some s, Some t => if vty_eqb s t then Some Γ else None | _, _ => None end
      | None => match type_of Γ e with Some _ => Some Γ | None => None end
      end
  | _ => match type_of Γ e with Some _ => Some Γ | None => None end
  end.
Variable ret : vty.
Notation gstmt := (type_stmt type_of gexpr ret).
Notation glist := (type_list type_of gexpr ret).
Definition var_at (σ : cg) (id : nat) (t : vty) : Prop := (exists s, nth_error (objs σ) id = Some (Val t (LSlot s))) /\ t <> TVoid.
Definition scoped_at (Γ : ctx) (σ : cg) : Prop := forall x,
  match find_text (named σ) x, Γ x with Some id, Some t => var_at σ id t | None, None => True | _, _ => False end.
Record inv (Γ : ctx) (loop : bool) (σ : cg) : Prop := {
  i_scope : scoped_at Γ σ;
  i_loop : loop = match loops σ with [] => false | _ => true end;
  i_ret : ret_ty σ = ret }.
Lemma var_at_at σ id t : var_at σ id t -> at_ σ id t.
Proof. intros [(s & E) N]. exists (Val t (LSlot s)). cbn. split; [exact E|]. split; [reflexivity|]. split; [exact N|]. intros _. exact N. Qed.
Lemma var_at_grows σ σ' id t : grows σ σ' -> var_at σ id t -> var_at σ' id t.
Proof. intros [[os E] _ _ _ _] [(s & H) N]. split; [|assumption]. exists s. rewrite E, nth_error_app1; [assumption|]. eapply nth_error_lt; eauto. Qed.
Lemma scoped_at_grows Γ σ σ' : grows σ σ' -> scoped_at Γ σ -> scoped_at Γ σ'.
Proof. intros G H x. specialize (H x). rewrite (g_named _ _ G). destruct (find_text (named σ) x), (Γ x); auto. eapply var_at_grows; eauto. Qed.
Lemma inv_grows Γ l σ σ' : grows σ σ' -> inv Γ l σ -> inv Γ l σ'.
Proof. intros G [A B C]. constructor; [eapply scoped_at_grows; eauto|rewrite (g_loops _ _ G); assumption|rewrite (g_ret _ _ G); assumption]. Qed.
Lemma inv_scope Γ l σ X0 : inv Γ l σ -> scope Γ X0 σ.
Proof. intros [A _ _] x _. specialize (A x). destruct (find_text (named σ) x), (Γ x); auto. now apply var_at_at. Qed.
(** What follows depends on the state only through these parts. *)
Lemma inv_eq Γ l σ σ' : objs σ' = objs σ -> named σ' = named σ -> loops σ' = loops σ -> ret_ty σ' = ret_ty σ -> inv Γ l σ -> inv Γ l σ'.
Proof. intros E1 E2 E3 E4 [A B C]. constructor; [|rewrite E3; exact B|congruence]. intros x. specialize (A x). unfold var_at. rewrite E2, E1. exact A. Qed.
Lemma inv_loops Γ l σ σ' : objs σ' = objs σ -> named σ' = named σ -> l = match loops σ' with [] => false | _ => true end -> ret_ty σ' = ret_ty σ -> forall l', inv Γ l' σ -> inv Γ l σ'.
Proof. intros E1 E2 E3 E4 l' [A B C]. constructor; [|assumption|congruence]. intros x. specialize (A x). unfold var_at. rewrite E2, E1. exact A. Qed.

(** A leaf, a tree, and an operator with two operands *)
Lemma rpn2 n id0 σ σ0 ns T op : bnode n σ = Ret (E_val id0, σ0) -> first σ0 ns T -> operand_count op = Some 2 ->
  match T with
  | None => fails (build_rpn llvm19 op_fun fsig (n :: ns ++ [N_op op]) σ)
  | Some t => exists id σ2, grows σ0 σ2 /\ at_ σ2 id t /\ build_rpn llvm19 op_fun fsig (n :: ns ++ [N_op op]) σ = do! r <- binary_op_ir op_fun op id0 id σ2; Ret r
  end.
Proof.
  intros En F Ho. unfold build_rpn, build_rpn_with. cbn [build_nodes]. rewrite En. cbn [obind]. rewrite bnodes_app. destruct F as [[-> F]|(t & σ1 & E & G & V & L & ET)].
  - do 3 apply fails_bind. assumption.
  - rewrite E. cbn [obind build_nodes build_node]. unfold eval_stack. cbn [app eval_nodes eval_node obind]. rewrite (eval_nodes_post _ _ _ _ _ _ _ V).
    pose proof (second_decides t σ1 V L) as D. rewrite ET in D. destruct T as [ty|].
    + destruct D as (id & σ2 & -> & G2 & A). exists id, σ2. split; [eapply grows_trans; eauto|]. split; [assumption|]. cbn [obind eval_nodes eval_node]. rewrite Ho. destruct (binary_op_ir _ _ _ _ _) as [[r σ3]| | |]; reflexivity.
    + cbn [decides] in D. do 2 apply fails_bind. assumption.
Qed.
Lemma find_cons {A} x (a : A) l y : find_text ((x, a) :: l) y = if text_eqb x y then Some a else find_text l y.
Proof. unfold find_text. cbn [find fst]. now destruct (text_eqb x y). Qed.
Lemma set_var_at Γ x id σ t s : scoped_at Γ σ -> Γ x = None -> id < length (objs σ) -> (forall s t, nth_error (objs σ) id <> Some (Val t (LSlot s))) -> t <> TVoid ->
  scoped_at (extend Γ x t) (set_named ((x, id) :: named σ) (set_objs (set_nth id (Val t (LSlot s)) (objs σ)) σ)).
Proof.
  intros A Hx Hl Hn Ht y. cbn [named set_named set_objs]. rewrite find_cons. unfold extend. rewrite (text_eqb_sym y x). destruct (text_eqb x y) eqn:E.
  - split; [|assumption]. exists s. cbn [objs set_named set_objs]. now apply set_nth_same.
  - specialize (A y). destruct (find_text (named σ) y) as [i|], (Γ y) as [u|]; auto. destruct A as [(k & Ek) N]. split; [|assumption]. exists k. cbn [objs set_named set_objs]. rewrite set_nth_other; [assumption|assumption|].
    intros ->. now elim (Hn k u).
Qed.
Definition stmt_ok (Γ' : option ctx) (l : bool) (σ : cg) (o : outcome cg) : Prop :=
  match Γ' with Some Γ' => exists σ', o = Ret σ' /\ inv Γ' l σ' /\ loops σ' = loops σ | None => fails o end.
Definition fit_expr (e : expr) : Prop := strict = true -> within_expr (fun _ _ => true) e = true.

Lemma decl_ok Γ l σ x a : inv Γ l σ -> pure a = true -> fit a -> ~ In x (reads a) ->
  stmt_ok (gexpr Γ (EBin OP_ASSIGN (EDef x) a)) l σ (do! (_, σ) <- build_rpn llvm19 op_fun fsig (emitE (EBin OP_ASSIGN (EDef x) a)) σ; Ret σ).
Proof.
  intros I Hp F Hx. cbn [emitE gexpr]. destruct I as [Sc Lo Re].
  set (σ0 := snd (new_void x σ)). set (id0 := fst (new_void x σ)).
  assert (bnode (N_def x) σ = Ret (E_val id0, σ0)) as En by (unfold id0, σ0; cbn [build_node]; destruct (new_void x σ); reflexivity).
  assert (id0 = length (objs σ)) as Ei by reflexivity.
  assert (objs σ0 = objs σ ++ [Val TVoid LNone]) as Eo. { unfold σ0, new_void. cbn. destruct (find_text (named σ) x); reflexivity. }
  assert (named σ0 = match find_text (named σ) x with Some _ => named σ | None => (x, id0) :: named σ end) as Em. { unfold σ0, new_void. cbn. destruct (find_text (named σ) x); reflexivity. }
  assert (loops σ0 = loops σ /\ ret_ty σ0 = ret_ty σ /\ ret_slot σ0 = ret_slot σ) as (E1 & E2 & E3). { unfold σ0, new_void. cbn. destruct (find_text (named σ) x); auto. }
  assert (scope Γ (fun y => y <> x) σ0) as S0.
  { intros y Hy. specialize (Sc y). rewrite Em. assert (find_text (match find_text (named σ) x with Some _ => named σ | None => (x, id0) :: named σ end) y = find_text (named σ) y) as ->.
    { destruct (find_text (named σ) x); [reflexivity|]. rewrite find_cons. destruct (text_eqb x y) eqn:E; [|reflexivity]. apply text_eqb_eq in E. congruence. }
    destruct (find_text (named σ) y), (Γ y); auto. destruct Sc as [(s & Es) N]. apply var_at_at. split; [|assumption]. exists s. rewrite Eo, nth_error_app1; [assumption|]. eapply nth_error_lt; eauto. }
  assert (occurs (fun y => y <> x) a) as Oc by (intros y Hy ->; contradiction).
  pose proof (rpn2 (N_def x) id0 σ σ0 (emitE a) (type_of Γ a) OP_ASSIGN En (first_decides Γ _ a Hp F Oc σ0 S0) eq_refl) as R. cbn [app].
  destruct (type_of Γ a) as [t|]; [|cbn [stmt_ok]; now apply fails_bind]. destruct R as (id & σ2 & G & A & ->).
  unfold binary_op_ir. cbn [plain_op]. change (optok_eqb OP_ASSIGN OP_ASSIGN) with true. cbn match. unfold copy_from, obj.
  destruct (g_objs _ _ G) as (os & Eos). assert (nth_error (objs σ2) id0 = Some (Val TVoid LNone)) as E0. { rewrite Eos, Eo, nth_error_app1 by (rewrite app_length; cbn; lia). rewrite nth_error_app2, Ei, Nat.sub_diag by lia. reflexivity. }
  rewrite E0. cbn [obind v_ty]. change (vty_eqb TVoid TVoid) with true. cbn match. destruct A as (u & Eu & Tu & Pu & Nu). rewrite Eu. cbn [obind v_loc]. rewrite Tu.
  assert (scoped_at Γ (set_named (named σ) σ2)) as S2.
  { intros y. specialize (Sc y). cbn [named set_named]. destruct (find_text (named σ) y), (Γ y); auto. destruct Sc as [(s & Es) N]. split; [|assumption]. exists s. cbn [objs set_named]. rewrite Eos, Eo, <- app_assoc, nth_error_app1; [assumption|]. eapply nth_error_lt; eauto. }
  assert (id0 < length (objs σ2)) as Hlt by (eapply nth_error_lt; eauto).
  (* the state after the assignment, up to the code *)
  assert (forall s σ', t <> TVoid -> objs σ' = set_nth id0 (Val t (LSlot s)) (objs σ2) -> named σ' = named σ2 -> loops σ' = loops σ2 -> ret_ty σ' = ret_ty σ2 ->
    inv (match Γ x with Some _ => Γ | None => extend Γ x t end) l σ' /\ loops σ' = loops σ) as Fin.
  { intros s σ' Ht Q1 Q2 Q3 Q4. assert (loops σ' = loops σ) as QL by (rewrite Q3, (g_loops _ _ G); exact E1). split; [|exact QL]. constructor; [|rewrite QL; exact Lo|rewrite Q4, (g_ret _ _ G), E2; exact Re].
    pose proof (Sc x) as Sx. destruct (find_text (named σ) x) as [i|] eqn:Ex, (Γ x) as [tx|] eqn:Gx; try contradiction.
    - intros y. specialize (S2 y). rewrite Q2, (g_named _ _ G), Em. cbn [named set_named] in S2. destruct (find_text (named σ) y) as [j|], (Γ y) as [ty|]; auto. destruct S2 as [(k & Ek) N]. split; [|assumption]. exists k. rewrite Q1. cbn [objs set_named] in Ek.
      rewrite set_nth_other; auto. intros ->. rewrite Ek in E0. discriminate E0.
    - pose proof (set_var_at Γ x id0 (set_named (named σ) σ2) t s S2 Gx Hlt) as Q. cbn [objs set_named named] in Q. specialize (Q ltac:(intros; rewrite E0; discriminate) Ht).
      intros y. specialize (Q y). rewrite Q2, (g_named _ _ G), Em. unfold var_at in *. rewrite Q1. exact Q. }
  destruct (v_loc u) as [|s|o] eqn:El.
  - contradiction Pu.
  - cbn in Pu. destruct (vty_eqb t TVoid) eqn:Et. { apply vty_eqb_eq in Et. contradiction. }
    cbn [obind stmt_ok]. eexists. split; [reflexivity|]. eapply (Fin s); auto. cbn [objs set_objs]. f_equal. destruct u as [tu lu]. cbn in Tu, El. congruence.
  - destruct (vty_eqb t TVoid) eqn:Et.
    + apply vty_eqb_eq in Et. cbn [obind stmt_ok]. cbn. unfold novoid in Nu. destruct strict; auto. now elim (Nu eq_refl).
    + apply vty_eqb_neq in Et. cbn [new_slot obind stmt_ok]. eexists. split; [reflexivity|]. eapply (Fin (nslot σ2)); frame; auto.
Qed.

Lemma var_leaf Γ σ x : scoped_at Γ σ ->
  match Γ x with
  | Some t => exists id, bnode (N_var x) σ = Ret (E_val id, σ) /\ var_at σ id t
  | None => fails (bnode (N_var x) σ) \/ exists id σ0 k, bnode (N_var x) σ = Ret (E_val id, σ0) /\ grows σ σ0 /\ nth_error (objs σ0) id = Some (Val (TNum F64) (LVal k))
  end.
Proof.
  intros Sc. specialize (Sc x). cbn [build_node]. unfold get_local_var. destruct (find_text (named σ) x) as [id|], (Γ x) as [t|]; try contradiction.
  - exists id. auto.
  - destruct (text_eqb x (lit "pi")); [|destruct (text_eqb x (lit "e")); [|left; exact I]]; right; eexists _, _, _; split; [reflexivity| |reflexivity|]; cbn [fst snd new_value].
    all: split; [grow|cbn [objs set_objs]; rewrite nth_error_app2, Nat.sub_diag by lia; reflexivity].
Qed.

Lemma scope_all Γ l σ e : inv Γ l σ -> scope Γ (fun _ => True) σ /\ occurs (fun _ => True) e.
Proof. intros I. split; [eapply inv_scope; eauto|intros x _; trivial]. Qed.

Lemma assign_ok Γ l σ x a : inv Γ l σ -> pure a = true -> fit a ->
  stmt_ok (gexpr Γ (EBin OP_ASSIGN (EVar x) a)) l σ (do! (_, σ) <- build_rpn llvm19 op_fun fsig (emitE (EBin OP_ASSIGN (EVar x) a)) σ; Ret σ).
Proof.
  intros I Hp F. cbn [emitE gexpr app]. pose proof (var_leaf Γ σ x (i_scope _ _ _ I)) as V. destruct (Γ x) as [tx|] eqn:Gx.
  - destruct V as (id0 & En & Va). destruct (scope_all Γ l σ a I) as [Sc Oc].
    pose proof (rpn2 (N_var x) id0 σ σ (emitE a) (type_of Γ a) OP_ASSIGN En (first_decides Γ _ a Hp F Oc σ Sc) eq_refl) as R.
    destruct (type_of Γ a) as [t|]; [|cbn [stmt_ok]; now apply fails_bind]. destruct R as (id & σ2 & G & A & ->).
    unfold binary_op_ir. cbn [plain_op]. change (optok_eqb OP_ASSIGN OP_ASSIGN) with true. cbn match. unfold copy_from, obj.
    destruct (var_at_grows _ _ _ _ G Va) as [(s & Es) N]. rewrite Es. cbn [obind v_ty v_loc]. apply vty_eqb_neq in N. rewrite N. pose proof A as (u & Eu & Tu & Pu & Nu). rewrite Eu. cbn [obind]. rewrite Tu.
    destruct (vty_eqb tx t); cbn [negb]; [|exact Logic.I]. destruct (load_ok _ _ _ A) as (o & σ3 & -> & G3). cbn [obind stmt_ok]. eexists. split; [reflexivity|].
    pose proof (grows_trans _ _ _ G G3) as G13. split; [|frame; apply (g_loops _ _ G13)]. eapply inv_eq; [..|eapply inv_grows; [exact G13|exact I]]; frame; reflexivity.
  - cbn [stmt_ok]. apply fails_bind. destruct V as [V|(id0 & σ0 & k & En & G & E0)].
    + unfold build_rpn, build_rpn_with. cbn [build_nodes]. do 2 apply fails_bind. assumption.
    + destruct (scope_all Γ l σ0 a (inv_grows _ _ _ _ G I)) as [Sc Oc].
      pose proof (rpn2 (N_var x) id0 σ σ0 (emitE a) (type_of Γ a) OP_ASSIGN En (first_decides Γ _ a Hp F Oc σ0 Sc) eq_refl) as R.
      destruct (type_of Γ a) as [t|]; [|exact R]. destruct R as (id & σ2 & G2 & A & ->).
      unfold binary_op_ir. cbn [plain_op]. change (optok_eqb OP_ASSIGN OP_ASSIGN) with true. cbn match. unfold copy_from, obj.
      destruct (g_objs _ _ G2) as (os & Eos). assert (nth_error (objs σ2) id0 = Some (Val (TNum F64) (LVal k))) as E2. { rewrite Eos, nth_error_app1; [assumption|]. eapply nth_error_lt; eauto. }
      rewrite E2. cbn [obind v_ty v_loc]. change (vty_eqb (TNum F64) TVoid) with false. cbn match. destruct A as (u & Eu & Tu & Pu & Nu). rewrite Eu. cbn [obind]. destruct (negb _); exact Logic.I.
Qed.

(** A conversion to another type gives a computed value. *)
Lemma cast_computed σ id v t id' σ' : nth_error (objs σ) id = Some v -> v_ty v <> t -> cast_to id t σ = Ret (id', σ') -> exists u o, nth_error (objs σ') id' = Some (Val u (LVal o)).
Proof.
  intros E N H. unfold cast_to, obj in H. rewrite E in H. cbn [obind] in H. apply vty_eqb_neq in N. rewrite N in H. destruct (negb _); [discriminate|]. destruct t as [| |m]; try discriminate.
  destruct (vty_eqb (v_ty v) TVoid); [discriminate|]. destruct (load_value id σ) as [[o σ1]| | |]; try discriminate. cbn [obind new_reg] in H. injection H as <- <-. eexists _, _. cbn [objs set_objs]. rewrite nth_error_app2, Nat.sub_diag by lia. reflexivity.
Qed.
Lemma pair_computed σ s t l r c l' r' σ' : at_ σ l s -> at_ σ r t -> pair_of σ s t l r = Ret (c, l', r', σ') -> s <> c -> exists u o, nth_error (objs σ') l' = Some (Val u (LVal o)).
Proof.
  intros Al Ar H N. unfold pair_of in H. destruct (vty_eqb s t) eqn:E. { injection H as <- <- <- <-. contradiction. }
  destruct (normalize [s; t]) as [n| | |]; try discriminate. cbn [obind] in H. destruct (cast_to l n σ) as [[l1 σ1]| | |] eqn:C1; try discriminate. cbn [obind] in H. destruct (cast_to r n σ1) as [[r1 σ2]| | |] eqn:C2; try discriminate. cbn [obind] in H. injection H as <- <- <- <-.
  pose proof Al as (v & Ev & Tv & _). assert (v_ty v <> n) as Nv by congruence. destruct (cast_computed _ _ _ _ _ _ Ev Nv C1) as (u & o & Eu). exists u, o.
  pose proof (cast_decides σ l s n Al) as D1. destruct (convertible s n); [|cbn [decides] in D1; rewrite C1 in D1; contradiction D1]. destruct D1 as (? & ? & Q & G1 & _). rewrite C1 in Q. injection Q as <- <-.
  pose proof (cast_decides σ1 r t n (at_grows _ _ _ _ G1 Ar)) as D2. destruct (convertible t n); [|cbn [decides] in D2; rewrite C2 in D2; contradiction D2]. destruct D2 as (? & ? & Q & G2 & _). rewrite C2 in Q. injection Q as <- <-.
  destruct (g_objs _ _ G2) as (os & ->). rewrite nth_error_app1; [assumption|]. eapply nth_error_lt; eauto.
Qed.
Lemma compound_plain op op' : In (op, op') compound -> operand_count op = Some 2 /\ plain_op op = (op', true) /\ optok_eqb op' OP_ASSIGN = false /\ (forall t, bin_builtin op' t = true) /\ is_compare_op op' = false /\ (forall t, core llvm19 op' t = true) /\ comparison op' = false.
Proof. cbn [compound In]. intros H. repeat (destruct H as [H|H]; [injection H as <- <-; repeat split; reflexivity|]). contradiction. Qed.

(** x op= a, where the object of x is in a slot or a computed value *)
Lemma compound_assign op op' id0 id σ tx t : In (op, op') compound -> at_ σ id0 tx -> at_ σ id t -> tx <> TVoid ->
  match op_type op' [tx; t] with
  | Some u => if vty_eqb tx u && match nth_error (objs σ) id0 with Some (Val _ (LSlot _)) => true | _ => false end
              then exists r σ', binary_op_ir op_fun op id0 id σ = Ret (r, σ') /\ grows σ σ' else fails (binary_op_ir op_fun op id0 id σ)
  | None => fails (binary_op_ir op_fun op id0 id σ)
  end.
Proof.
  intros Hin A0 A N. destruct (compound_plain _ _ Hin) as (_ & Hpl & Has & Hb & Hc & Hk & Hcm). unfold binary_op_ir. rewrite Hpl, Has.
  pose proof A0 as (v & Ev & Tv & Pv & _). pose proof A as (u & Eu & Tu & _). unfold obj. rewrite Ev, Eu. cbn [obind]. rewrite Tv, Tu.
  pose proof (pair_ok σ tx t id0 id A0 A) as P. unfold Codegen_Scope.op_type. cbn [forallb].
  change (if vty_eqb tx t then Ret (tx, id0, id, σ) else do! t0 <- normalize [tx; t]; do! (l0, σ0) <- cast_to id0 t0 σ; do! (r0, σ1) <- cast_to id t0 σ0; Ret (t0, l0, r0, σ1)) with (pair_of σ tx t id0 id).
  destruct (common [tx; t]) as [c|]; [|now apply fails_bind]. destruct P as (C1 & C2 & l' & r' & σ1 & EP & G & A1 & A2 & Same). rewrite EP. cbn [obind]. rewrite C1, C2. cbn [andb]. unfold result_type. rewrite Hk, Hcm, Hc, Hb.
  destruct (vty_eqb c TVoid) eqn:Ec. { apply vty_eqb_eq in Ec. rewrite Ec in A1. eapply void_fails; [exact A1|reflexivity]. }
  destruct (load_ok _ _ _ A1) as (lo & σ2 & -> & G2). cbn [obind]. destruct (load_ok _ _ _ (at_grows _ _ _ _ G2 A2)) as (ro & σ3 & -> & G3). cbn [obind].
  assert (novoid c) as Nc by (destruct A1 as (? & _ & _ & _ & Nc); exact Nc).
  destruct (put_decides true op' c c [lo; ro] σ3 Nc) as (res & σ4 & -> & G4 & A4). cbn [obind].
  pose proof (grows_trans _ _ _ G2 (grows_trans _ _ _ G3 G4)) as G14. unfold copy_from, obj. pose proof (at_grows _ _ _ _ G14 A1) as (vl & El & Tl & Pl & _). rewrite El. cbn [obind]. rewrite Tl, Ec.
  pose proof A4 as (vr & Er & Tr & _). rewrite Er. cbn [obind]. rewrite Tr, vty_eqb_refl. cbn [negb].
  destruct (vty_eqb tx c) eqn:E.
  - apply vty_eqb_eq in E. specialize (Same E). subst l'. assert (vl = v) as ->. { pose proof (grows_trans _ _ _ G G14) as GG. destruct (g_objs _ _ GG) as (os & Eos). rewrite Eos, nth_error_app1 in El by (eapply nth_error_lt; eauto). congruence. }
    cbn [andb]. destruct v as [tv lv]. cbn [v_loc] in *. destruct lv as [|s|o]; [exact I| |exact I].
    destruct (load_ok _ _ _ A4) as (o & σ5 & -> & G5). cbn [obind]. eexists _, _. split; [reflexivity|]. eapply grows_trans; [exact G|]. eapply grows_trans; [exact G14|]. eapply grows_trans; [exact G5|]. grow. exists []. now rewrite app_nil_r.
  - cbn [andb]. apply vty_eqb_neq in E. destruct (pair_computed _ _ _ _ _ _ _ _ _ A0 A EP E) as (u' & o & E').
    destruct (g_objs _ _ G14) as (os & Eos). rewrite Eos, nth_error_app1, E' in El by (eapply nth_error_lt; eauto). injection El as <-. cbn [v_loc]. exact I.
Qed.
Lemma compound_ok Γ l σ op op' x a : inv Γ l σ -> pure a = true -> fit a -> In (op, op') compound -> find (fun p => optok_eqb (fst p) op) compound = Some (op, op') ->
  stmt_ok (gexpr Γ (EBin op (EVar x) a)) l σ (do! (_, σ) <- build_rpn llvm19 op_fun fsig (emitE (EBin op (EVar x) a)) σ; Ret σ).
Proof.
  intros I Hp F Hin Hf. destruct (compound_plain _ _ Hin) as (Ho & Hpl & Has & _).
  assert (gexpr Γ (EBin op (EVar x) a) = match Γ x, type_of Γ (EBin op' (EVar x) a) with Some s, Some t => if vty_eqb s t then Some Γ else None | _, _ => None end) as ->.
  { unfold gexpr. rewrite Hf. cbn [compound In] in Hin. repeat (destruct Hin as [Hin|Hin]; [injection Hin as <- <-; reflexivity|]). contradiction. }
  cbn [emitE app]. pose proof (var_leaf Γ σ x (i_scope _ _ _ I)) as V. cbn [Codegen_Scope.type_of]. destruct (Γ x) as [tx|] eqn:Gx.
  - destruct V as (id0 & En & Va). destruct (scope_all Γ l σ a I) as [Sc Oc].
    pose proof (rpn2 (N_var x) id0 σ σ (emitE a) (type_of Γ a) op En (first_decides Γ _ a Hp F Oc σ Sc) Ho) as R.
    destruct (type_of Γ a) as [t|]; [|cbn [stmt_ok]; now apply fails_bind]. destruct R as (id & σ2 & G & A & ->).
    pose proof (var_at_grows _ _ _ _ G Va) as Va2. pose proof Va2 as [(s & Es) N]. pose proof (compound_assign op op' id0 id σ2 tx t Hin (var_at_at _ _ _ Va2) A N) as C. rewrite Es in C.
    destruct (op_type op' [tx; t]) as [u|]; [|cbn [stmt_ok]; do 2 apply fails_bind; assumption]. rewrite andb_true_r in C. destruct (vty_eqb tx u); [|cbn [stmt_ok]; do 2 apply fails_bind; assumption].
    destruct C as (r & σ3 & -> & G3). cbn [obind stmt_ok]. exists σ3. split; [reflexivity|]. pose proof (grows_trans _ _ _ G G3) as G13. split; [eapply inv_grows; eauto|apply (g_loops _ _ G13)].
  - cbn [stmt_ok]. apply fails_bind. destruct V as [V|(id0 & σ0 & k & En & G & E0)].
    + unfold build_rpn, build_rpn_with. cbn [build_nodes]. do 2 apply fails_bind. assumption.
    + destruct (scope_all Γ l σ0 a (inv_grows _ _ _ _ G I)) as [Sc Oc].
      pose proof (rpn2 (N_var x) id0 σ σ0 (emitE a) (type_of Γ a) op En (first_decides Γ _ a Hp F Oc σ0 Sc) Ho) as R.
      destruct (type_of Γ a) as [t|]; [|exact R]. destruct R as (id & σ2 & G2 & A & ->). apply fails_bind.
      destruct (g_objs _ _ G2) as (os & Eos). assert (nth_error (objs σ2) id0 = Some (Val (TNum F64) (LVal k))) as E2. { rewrite Eos, nth_error_app1; [assumption|]. eapply nth_error_lt; eauto. }
      assert (at_ σ2 id0 (TNum F64)) as A0. { exists (Val (TNum F64) (LVal k)). split; [exact E2|]. split; [reflexivity|]. split; [exact Logic.I|discriminate]. }
      pose proof (compound_assign op op' id0 id σ2 (TNum F64) t Hin A0 A ltac:(discriminate)) as C. rewrite E2 in C. destruct (op_type op' [TNum F64; t]) as [u|]; [rewrite andb_false_r in C|]; exact C.
Qed.
Lemma pure_ok Γ l σ e : inv Γ l σ -> pure e = true -> fit e ->
  stmt_ok (match type_of Γ e with Some _ => Some Γ | None => None end) l σ (do! (_, σ) <- build_rpn llvm19 op_fun fsig (emitE e) σ; Ret σ).
Proof.
  intros I Hp F. destruct (scope_all Γ l σ e I) as [Sc Oc]. pose proof (first_rpn _ _ _ (first_decides Γ _ e Hp F Oc σ Sc)) as D. destruct (type_of Γ e) as [t|].
  - destruct D as (id & σ' & -> & G & A). cbn [obind stmt_ok]. exists σ'. split; [reflexivity|]. split; [eapply inv_grows; eauto|apply (g_loops _ _ G)].
  - cbn [decides stmt_ok] in *. now apply fails_bind.
Qed.
Lemma expr_ok Γ l σ o : inv Γ l σ -> simple_expr (denote o) = true -> fit_expr (denote o) ->
  stmt_ok (gexpr Γ (denote o)) l σ (do! (_, σ) <- build_expr llvm19 op_fun fsig o σ; Ret σ).
Proof.
  intros I Hs F. unfold build_expr. rewrite emit_denote. set (e := denote o) in *. clearbody e. destruct (Codegen_Results.simple_cases e Hs) as [(x & a & ->)|[(x & a & ->)|[(op & op' & x & a & -> & Hf & Na)|Hp]]].
  - cbn [simple_expr] in Hs. apply andb_true_iff in Hs as [Hs Hr]. apply andb_true_iff in Hs as [Hp _]. apply decl_ok; auto.
    apply negb_true_iff in Hr. intros Hin. assert (existsb (text_eqb x) (reads a) = true) as Q; [|congruence]. apply existsb_exists. exists x. split; [assumption|apply text_eqb_refl].
  - apply assign_ok; auto.
  - assert (In (op, op') compound) as Hin. { apply find_some in Hf as [Hin E]. cbn [fst] in E. assumption. }
    apply compound_ok with (op' := op'); auto.
    + cbn [compound In] in Hin. repeat (destruct Hin as [Hin|Hin]; [injection Hin as <- <-; exact Hs|]). contradiction.
    + intros St. specialize (F St). unfold within_expr in F. rewrite Hf in F. cbn [compound In] in Hin. repeat (destruct Hin as [Hin|Hin]; [injection Hin as <- <-; exact F|]). contradiction.
  - assert (gexpr Γ e = match type_of Γ e with Some _ => Some Γ | None => None end) as ->.
    { destruct e as [| | | | | | | | |op a b|]; try reflexivity. cbn [pure] in Hp. apply andb_true_iff in Hp as [Hp _]. apply andb_true_iff in Hp as [Hop _]. destruct op; try discriminate Hop; destruct a; reflexivity. }
    apply pure_ok; auto. intros St. specialize (F St). destruct e as [| | | | | | | | |op a b|]; try exact F. cbn [pure] in Hp. apply andb_true_iff in Hp as [Hp _]. apply andb_true_iff in Hp as [Hop _]. destruct op; try discriminate Hop; destruct a; exact F.
Qed.

Notation build_stmt := (build_stmt llvm19 op_fun fsig).
Definition gelifs (l : bool) : ctx -> list (expr * list st) -> option ctx :=
  fix elifs Γ es :=
    match es with
    | [] => Some Γ
    | (c, b) :: es' => if is_bool type_of Γ c then match glist l Γ b with Some Γ => elifs Γ es' | None => None end else None
    end.
Definition fit_stmt (s : st) : Prop := strict = true -> within_stmt (fun _ _ => true) s = true.
Definition decided (s : stmt) : Prop := simple (denote_stmt s) = true -> fit_stmt (denote_stmt s) ->
  forall Γ l σ, inv Γ l σ -> stmt_ok (gstmt l Γ (denote_stmt s)) l σ (build_stmt s σ).
Lemma list_decided ss : Forall decided ss -> forallb simple (map denote_stmt ss) = true -> (strict = true -> forallb (within_stmt (fun _ _ => true)) (map denote_stmt ss) = true) ->
  forall Γ l σ, inv Γ l σ -> stmt_ok (glist l Γ (map denote_stmt ss)) l σ (build_list build_stmt ss σ).
Proof.
  induction 1 as [|s ss H _ IH]; intros Hs Hf Γ l σ I.
  - exists σ. auto.
  - cbn [map forallb] in Hs, Hf. apply andb_true_iff in Hs as [H1 H2]. cbn [map]. change (glist l Γ (denote_stmt s :: map denote_stmt ss)) with (match gstmt l Γ (denote_stmt s) with Some Γ => glist l Γ (map denote_stmt ss) | None => None end).
    change (build_list build_stmt (s :: ss) σ) with (do! σ <- build_stmt s σ; build_list build_stmt ss σ).
    specialize (H H1 ltac:(intros St; specialize (Hf St); now apply andb_true_iff in Hf) Γ l σ I). destruct (gstmt l Γ (denote_stmt s)) as [Γ1|]; [|cbn [stmt_ok] in *; now apply fails_bind].
    destruct H as (σ1 & -> & I1 & L1). cbn [obind]. specialize (IH H2 ltac:(intros St; specialize (Hf St); now apply andb_true_iff in Hf) Γ1 l σ1 I1). destruct (glist l Γ1 (map denote_stmt ss)) as [Γ2|]; [|exact IH].
    destruct IH as (σ2 & E & I2 & L2). exists σ2. split; [exact E|]. split; [assumption|congruence].
Qed.
Lemma cond_ok Γ l σ c : inv Γ l σ -> pure (denote c) = true -> fit (denote c) ->
  if is_bool type_of Γ (denote c) then exists id σ', build_cond llvm19 op_fun fsig c σ = Ret (id, σ') /\ grows σ σ' /\ at_ σ' id TBit else fails (build_cond llvm19 op_fun fsig c σ).
Proof.
  intros I Hp F. destruct (scope_all Γ l σ (denote c) I) as [Sc Oc]. pose proof (expr_decides Γ _ c σ Hp F Oc Sc) as D. unfold is_bool, build_cond. destruct (type_of Γ (denote c)) as [t|]; [|cbn [decides] in D; now apply fails_bind].
  destruct D as (id & σ' & -> & G & A). cbn [obind]. pose proof A as (v & E & T & _). unfold obj. rewrite E. cbn [obind]. rewrite T. destruct t as [| |n]; [exact Logic.I| |exact Logic.I]. exists id, σ'. auto.
Qed.
Lemma branch_ok Γ l σ id b n : inv Γ l σ -> at_ σ id TBit -> exists σ', branch_ir id b n σ = Ret σ' /\ inv Γ l σ' /\ loops σ' = loops σ.
Proof.
  intros I A. unfold branch_ir. destruct (load_ok _ _ _ A) as (o & σ1 & -> & G). cbn [obind]. eexists. split; [reflexivity|]. split; [|frame; apply (g_loops _ _ G)]. eapply inv_eq; [..|eapply inv_grows; [exact G|exact I]]; frame; reflexivity.
Qed.
Lemma new_block_frame b σ c σ' : new_block b σ = (c, σ') -> objs σ' = objs σ /\ named σ' = named σ /\ loops σ' = loops σ /\ ret_ty σ' = ret_ty σ.
Proof. intros H. injection H as <- <-. auto. Qed.
Lemma new_elifs_frame n : forall σ es σ', new_elifs n σ = (es, σ') -> length es = n /\ objs σ' = objs σ /\ named σ' = named σ /\ loops σ' = loops σ /\ ret_ty σ' = ret_ty σ.
Proof.
  induction n as [|n IH]; cbn [new_elifs]; intros σ es σ' H; [injection H as <- <-; auto|]. destruct (new_block true σ) as [c σ1] eqn:E1. destruct (new_block true σ1) as [b σ2] eqn:E2. destruct (new_elifs n σ2) as [l σ3] eqn:E3. injection H as <- <-.
  apply new_block_frame in E1 as (? & ? & ? & ?), E2 as (? & ? & ? & ?). apply IH in E3 as (? & ? & ? & ? & ?). cbn [length]. repeat split; congruence.
Qed.
Lemma end_frame b e σ : objs (end_branch b e σ) = objs σ /\ named (end_branch b e σ) = named σ /\ loops (end_branch b e σ) = loops σ /\ ret_ty (end_branch b e σ) = ret_ty σ.
Proof. unfold end_branch. destruct (block_term b σ); frame; auto. Qed.

Lemma elifs_decided es : Forall (fun x => Forall decided (snd x)) es ->
  forallb (fun x => match x with (c, b) => pure c && forallb simple b end) (map (fun x => match x with (c, b) => (denote c, map denote_stmt b) end) es) = true ->
  (strict = true -> forallb (fun x => match x with (c, b) => within (fun _ _ => true) c && forallb (within_stmt (fun _ _ => true)) b end) (map (fun x => match x with (c, b) => (denote c, map denote_stmt b) end) es) = true) ->
  forall Γ l σ bs el e, inv Γ l σ -> length bs = length es ->
  stmt_ok (gelifs l Γ (map (fun x => match x with (c, b) => (denote c, map denote_stmt b) end) es)) l σ
    (build_elifs llvm19 op_fun fsig (build_list build_stmt) el e es bs σ).
Proof.
  induction 1 as [|[c b] es H _ IH]; intros Hs Hf Γ l σ bs el e I Hb.
  - exists σ. auto.
  - destruct bs as [|[cb bb] bs]; [discriminate Hb|]. injection Hb as Hb. cbn [map forallb] in Hs, Hf. apply andb_true_iff in Hs as [H1 H2]. apply andb_true_iff in H1 as [Hc H1]. cbn [snd] in H.
    assert (fit (denote c)) as Fc. { intros St. specialize (Hf St). apply andb_true_iff in Hf as [Hf _]. now apply andb_true_iff in Hf. }
    assert (strict = true -> forallb (within_stmt (fun _ _ => true)) (map denote_stmt b) = true) as Fb. { intros St. specialize (Hf St). apply andb_true_iff in Hf as [Hf _]. now apply andb_true_iff in Hf. }
    assert (forall St : strict = true, forallb (fun x => match x with (c, b) => within (fun _ _ => true) c && forallb (within_stmt (fun _ _ => true)) b end) (map (fun x => match x with (c, b) => (denote c, map denote_stmt b) end) es) = true) as Fe. { intros St. specialize (Hf St). now apply andb_true_iff in Hf. }
    cbn [map]. cbn [build_elifs gelifs].
    assert (inv Γ l (set_cur cb σ)) as I0 by (eapply inv_eq; [..|exact I]; reflexivity). pose proof (cond_ok Γ l (set_cur cb σ) c I0 Hc Fc) as C. destruct (is_bool type_of Γ (denote c)); [|cbn [stmt_ok]; now apply fails_bind].
    destruct C as (id & σ1 & -> & G1 & A1). cbn [obind]. pose proof (inv_grows _ _ _ _ G1 I0) as I1. destruct (branch_ok Γ l σ1 id bb (next_block bs el e) I1 A1) as (σ2 & -> & I2 & L2). cbn [obind].
    pose proof (list_decided b H H1 Fb Γ l σ2 I2) as D. destruct (glist l Γ (map denote_stmt b)) as [Γ1|]; [|cbn [stmt_ok] in *; now apply fails_bind].
    destruct D as (σ3 & -> & I3 & L3). cbn [obind]. destruct (end_frame bb e σ3) as (Q1 & Q2 & Q3 & Q4). assert (inv Γ1 l (end_branch bb e σ3)) as I4 by (eapply inv_eq; [..|exact I3]; assumption).
    specialize (IH H2 Fe Γ1 l (end_branch bb e σ3) bs el e I4 Hb).
    match goal with |- stmt_ok ?x _ _ _ => destruct x as [Γ2|] end; [|exact IH]. destruct IH as (σ4 & E4 & I5 & L4). exists σ4. split; [exact E4|]. split; [exact I5|]. rewrite L4, Q3, L3, L2, (g_loops _ _ G1). reflexivity.
Qed.

Lemma new_loop_frame σ c b e σ' : new_loop σ = (c, b, e, σ') -> objs σ' = objs σ /\ named σ' = named σ /\ ret_ty σ' = ret_ty σ /\ loops σ' = (c, e) :: loops σ.
Proof.
  unfold new_loop. destruct (new_block true σ) as [c0 σ1] eqn:E1. destruct (new_block false σ1) as [e0 σ2] eqn:E2. destruct (new_block false σ2) as [b0 σ3] eqn:E3. intros H. injection H as <- <- <- <-.
  apply new_block_frame in E1 as (? & ? & ? & ?), E2 as (? & ? & ? & ?), E3 as (? & ? & ? & ?). match goal with |- context [cur_term ?x] => destruct (cur_term x) end; frame; repeat split; congruence.
Qed.
Lemma new_condition_frame n h σ i es el e σ' : new_condition n h σ = (i, es, el, e, σ') ->
  length es = n /\ objs σ' = objs σ /\ named σ' = named σ /\ ret_ty σ' = ret_ty σ /\ loops σ' = loops σ /\ (el = None <-> h = false).
Proof.
  unfold new_condition. destruct (new_block true σ) as [i0 σ1] eqn:E1. destruct (new_elifs n σ1) as [l σ2] eqn:E2. apply new_block_frame in E1 as (? & ? & ? & ?). apply new_elifs_frame in E2 as (? & ? & ? & ? & ?).
  destruct h.
  - destruct (new_block true σ2) as [b σ3] eqn:E3. destruct (new_block true σ3) as [e0 σ4] eqn:E4. intros Hq. injection Hq as <- <- <- <- <-. apply new_block_frame in E3 as (? & ? & ? & ?), E4 as (? & ? & ? & ?). repeat split; congruence.
  - destruct (new_block true σ2) as [e0 σ4] eqn:E4. intros Hq. injection Hq as <- <- <- <- <-. apply new_block_frame in E4 as (? & ? & ? & ?). repeat split; congruence.
Qed.
Lemma pass_convertible s t : pass s t = convertible s t.
Proof. unfold pass, convertible. destruct s, t; try reflexivity; now rewrite ?orb_true_r, ?orb_false_r. Qed.

Theorem stmt_decided : forall s, decided s.
Proof.
  apply stmt_ind2.
  - intros [o|] Hs Hf Γ l σ I.
    + cbn [denote_stmt type_stmt build_stmt]. cbn [denote_stmt simple] in Hs. unfold fit_stmt in Hf. cbn [denote_stmt within_stmt] in Hf. destruct (scope_all Γ l σ (denote o) I) as [Sc Oc]. pose proof (expr_decides Γ _ o σ Hs Hf Oc Sc) as D.
      destruct (type_of Γ (denote o)) as [t|]; [|cbn [stmt_ok decides] in *; now apply fails_bind]. destruct D as (id & σ1 & -> & G & A). cbn [obind]. unfold return_ir. rewrite (g_ret _ _ G), (i_ret _ _ _ I).
      rewrite pass_convertible. pose proof (cast_decides σ1 id t ret A) as D. destruct (convertible t ret); [|cbn [stmt_ok decides] in *; now apply fails_bind]. destruct D as (id2 & σ2 & -> & G2 & A2). cbn [obind]. pose proof (grows_trans _ _ _ G G2) as G12.
      destruct (ret_slot σ2) as [s|].
      * destruct (load_ok _ _ _ A2) as (x & σ3 & -> & G3). cbn [obind stmt_ok]. pose proof (grows_trans _ _ _ G12 G3) as G13. eexists. split; [reflexivity|]. split; [|frame; apply (g_loops _ _ G13)]. eapply inv_eq; [..|eapply inv_grows; [exact G13|exact I]]; frame; reflexivity.
      * cbn [stmt_ok]. eexists. split; [reflexivity|]. split; [|frame; apply (g_loops _ _ G12)]. eapply inv_eq; [..|eapply inv_grows; [exact G12|exact I]]; frame; reflexivity.
    + cbn [denote_stmt type_stmt build_stmt return_ir stmt_ok]. eexists. split; [reflexivity|]. split; [|frame; reflexivity]. eapply inv_eq; [..|exact I]; frame; reflexivity.
  - intros o Hs Hf Γ l σ I. cbn [denote_stmt type_stmt build_stmt]. apply expr_ok; auto.
  - intros c b H Hs Hf Γ l σ I. cbn [denote_stmt simple] in Hs. unfold fit_stmt in Hf. cbn [denote_stmt within_stmt] in Hf. apply andb_true_iff in Hs as [Hc Hb].
    assert (fit (denote c)) as Fc. { intros St. specialize (Hf St). now apply andb_true_iff in Hf. }
    assert (strict = true -> forallb (within_stmt (fun _ _ => true)) (map denote_stmt b) = true) as Fb. { intros St. specialize (Hf St). now apply andb_true_iff in Hf. }
    cbn [denote_stmt build_stmt]. change (gstmt l Γ (StWhile (denote c) (map denote_stmt b))) with (if is_bool type_of Γ (denote c) then glist true Γ (map denote_stmt b) else None).
    destruct (new_loop σ) as [[[cb bb] eb] σ0] eqn:EL. apply new_loop_frame in EL as (Q1 & Q2 & Q3 & Q4).
    assert (inv Γ true σ0) as I0. { eapply inv_loops; [..|exact I]; auto. rewrite Q4. reflexivity. }
    pose proof (cond_ok Γ true σ0 c I0 Hc Fc) as C. destruct (is_bool type_of Γ (denote c)); [|cbn [stmt_ok]; now apply fails_bind]. destruct C as (id & σ1 & -> & G1 & A1). cbn [obind].
    unfold add_loop_cond. destruct (load_ok _ _ _ A1) as (o & σ2 & -> & G2). cbn [obind]. pose proof (grows_trans _ _ _ G1 G2) as G12.
    set (σ3 := set_cur bb _). assert (inv Γ true σ3) as I3. { eapply inv_eq; [..|eapply inv_grows; [exact G12|exact I0]]; unfold σ3; frame; reflexivity. }
    assert (loops σ3 = (cb, eb) :: loops σ) as L3. { unfold σ3. frame. rewrite (g_loops _ _ G12). exact Q4. }
    pose proof (list_decided b H Hb Fb Γ true σ3 I3) as D. destruct (glist true Γ (map denote_stmt b)) as [Γ1|]; [|cbn [stmt_ok] in *; now apply fails_bind]. destruct D as (σ4 & -> & I4 & L4). cbn [obind stmt_ok].
    assert (loops (finish_loop cb eb σ4) = loops σ) as LF. { unfold finish_loop. destruct (cur_term σ4); frame; rewrite L4, L3; reflexivity. }
    exists (finish_loop cb eb σ4). split; [reflexivity|]. split; [|exact LF]. eapply inv_loops; [..|exact I4].
    + unfold finish_loop. destruct (cur_term σ4); frame; reflexivity.
    + unfold finish_loop. destruct (cur_term σ4); frame; reflexivity.
    + rewrite LF. apply (i_loop _ _ _ I).
    + unfold finish_loop. destruct (cur_term σ4); frame; reflexivity.
  - intros c b es els H Hes Hel Hs Hf Γ l σ I. cbn [denote_stmt simple] in Hs. unfold fit_stmt in Hf. cbn [denote_stmt within_stmt] in Hf. apply andb_true_iff in Hs as [Hs Hsel]. apply andb_true_iff in Hs as [Hs Hses]. apply andb_true_iff in Hs as [Hc Hb].
    assert (fit (denote c)) as Fc. { intros St. specialize (Hf St). apply andb_true_iff in Hf as [Hf _]. apply andb_true_iff in Hf as [Hf _]. now apply andb_true_iff in Hf. }
    assert (strict = true -> forallb (within_stmt (fun _ _ => true)) (map denote_stmt b) = true) as Fb. { intros St. specialize (Hf St). apply andb_true_iff in Hf as [Hf _]. apply andb_true_iff in Hf as [Hf _]. now apply andb_true_iff in Hf. }
    assert (strict = true -> forallb (fun x => match x with (c, b) => within (fun _ _ => true) c && forallb (within_stmt (fun _ _ => true)) b end) (map (fun x => match x with (c, b) => (denote c, map denote_stmt b) end) es) = true) as Fe. { intros St. specialize (Hf St). apply andb_true_iff in Hf as [Hf _]. now apply andb_true_iff in Hf. }
    assert (strict = true -> match els with Some b => forallb (within_stmt (fun _ _ => true)) (map denote_stmt b) | None => true end = true) as Fl. { intros St. specialize (Hf St). apply andb_true_iff in Hf as [_ Hf]. destruct els; auto. }
    cbn [denote_stmt build_stmt].
    match goal with |- stmt_ok (gstmt l Γ (StIf ?c0 ?b0 ?es0 ?el0)) _ _ _ => change (gstmt l Γ (StIf c0 b0 es0 el0)) with
      (if is_bool type_of Γ c0 then match glist l Γ b0 with None => None | Some Γ1 =>
         match gelifs l Γ1 es0 with None => None | Some Γ2 => match el0 with Some b1 => glist l Γ2 b1 | None => Some Γ2 end end end else None) end.
    pose proof (cond_ok Γ l σ c I Hc Fc) as C. destruct (is_bool type_of Γ (denote c)); [|cbn [stmt_ok]; now apply fails_bind]. destruct C as (id & σ1 & -> & G1 & A1). cbn [obind].
    destruct (new_condition (length es) (match els with Some _ => true | None => false end) σ1) as [[[[ib bs] el] e] σ2] eqn:EN. apply new_condition_frame in EN as (Q0 & Q1 & Q2 & Q3 & Q4 & Q5).
    assert (inv Γ l σ2) as I2. { eapply inv_eq; [..|eapply inv_grows; [exact G1|exact I]]; auto. } assert (at_ σ2 id TBit) as A2. { destruct A1 as (v & A1). exists v. now rewrite Q1. }
    destruct (branch_ok Γ l σ2 id ib (next_block bs el e) I2 A2) as (σ3 & -> & I3 & L3). cbn [obind].
    pose proof (list_decided b H Hb Fb Γ l σ3 I3) as D. destruct (glist l Γ (map denote_stmt b)) as [Γ1|]; [|cbn [stmt_ok] in *; now apply fails_bind]. destruct D as (σ4 & -> & I4 & L4). cbn [obind].
    assert (inv Γ1 l (end_if e σ4)) as I5. { eapply inv_eq; [..|exact I4]; unfold end_if; destruct (cur_term σ4); frame; reflexivity. }
    assert (loops (end_if e σ4) = loops σ) as L5. { unfold end_if. destruct (cur_term σ4); frame; rewrite L4, L3, Q4, (g_loops _ _ G1); reflexivity. }
    pose proof (elifs_decided es Hes Hses Fe Γ1 l (end_if e σ4) bs el e I5 Q0) as D.
    match type of D with stmt_ok ?x _ _ _ => destruct x as [Γ2|] end; [|cbn [stmt_ok] in *; now apply fails_bind]. destruct D as (σ6 & -> & I6 & L6). cbn [obind].
    assert (forall Γ' σ', inv Γ' l σ' -> loops σ' = loops σ -> inv Γ' l (finish_condition e σ') /\ loops (finish_condition e σ') = loops σ) as Fin.
    { intros Γ' σ' I' L'. unfold finish_condition. destruct (negb (has_pred e σ')); (split; [eapply inv_eq; [..|exact I']; frame; reflexivity|frame; exact L']). }
    destruct els as [b2|].
    + destruct el as [lb|]; [|discriminate (proj1 Q5 eq_refl)]. assert (inv Γ2 l (set_cur lb σ6)) as I7 by (eapply inv_eq; [..|exact I6]; reflexivity).
      pose proof (list_decided b2 Hel Hsel Fl Γ2 l (set_cur lb σ6) I7) as D. destruct (glist l Γ2 (map denote_stmt b2)) as [Γ3|]; [|cbn [stmt_ok] in *; do 2 apply fails_bind; assumption]. destruct D as (σ8 & -> & I8 & L8). cbn [obind stmt_ok].
      eexists. split; [reflexivity|]. destruct (end_frame lb e σ8) as (R1 & R2 & R3 & R4). apply Fin; [eapply inv_eq; [..|exact I8]; assumption|]. rewrite R3, L8. cbn [loops set_cur]. congruence.
    + cbn [obind stmt_ok]. eexists. split; [reflexivity|]. apply Fin; [assumption|congruence].
  - intros p Hs Hf Γ l σ I. cbn [denote_stmt type_stmt build_stmt]. unfold continue_ir. pose proof (i_loop _ _ _ I) as L. destruct (loops σ) as [|[c e] r] eqn:E; rewrite L; [exact Logic.I|]. cbn [stmt_ok]. eexists. split; [reflexivity|]. split; [|frame; auto]. eapply inv_eq; [..|rewrite <- L; exact I]; frame; auto.
  - intros p Hs Hf Γ l σ I. cbn [denote_stmt type_stmt build_stmt]. unfold break_ir. pose proof (i_loop _ _ _ I) as L. destruct (loops σ) as [|[c e] r] eqn:E; rewrite L; [exact Logic.I|]. cbn [stmt_ok]. eexists. split; [reflexivity|]. split; [|frame; auto]. eapply inv_eq; [..|rewrite <- L; exact I]; frame; auto.
Qed.

(** *** Functions *)
Lemma known_nodup ps x t : NoDup (map snd ps) -> In (t, x) ps -> known ps x = Some t.
Proof.
  induction ps as [|[u y] ps IH]; cbn [map snd known]; intros N H; [contradiction|]. inversion N; subst. destruct H as [H|H].
  - injection H as -> ->. unfold extend. now rewrite text_eqb_refl.
  - unfold extend. destruct (text_eqb x y) eqn:E; [|now apply IH]. apply text_eqb_eq in E. subst y. elim H2. apply in_map_iff. exists (t, x). auto.
Qed.
Lemma define_args_ok ps : forall i Γ σ, Forall (fun p => fst p <> TVoid) ps -> NoDup (map snd ps) -> (forall x, In x (map snd ps) -> Γ x = None) ->
  scoped_at Γ σ -> scoped_at (fun x => match known ps x with Some t => Some t | None => Γ x end) (define_args i ps σ) /\
    loops (define_args i ps σ) = loops σ /\ ret_ty (define_args i ps σ) = ret_ty σ.
Proof.
  induction ps as [|[t x] ps IH]; intros i Γ σ Hv Hn Hf Sc; cbn [define_args known map snd] in *; [auto|]. inversion Hv; inversion Hn; subst. cbn [fst] in *.
  cbn [new_slot new_value]. match goal with |- context [define_args (S i) ps ?s] => set (σ1 := s) end.
  assert (scoped_at (extend Γ x t) σ1) as S1.
  { intros y. unfold σ1. cbn [named set_named set_objs]. frame. rewrite find_cons. unfold extend. rewrite (text_eqb_sym y x). destruct (text_eqb x y) eqn:E.
    - split; [|assumption]. exists (nslot σ). cbn [objs set_named set_objs]. frame. rewrite nth_error_app2, Nat.sub_diag by lia. reflexivity.
    - specialize (Sc y). frame. destruct (find_text (named σ) y) as [j|], (Γ y) as [u|]; auto. destruct Sc as [(k & Ek) N]. split; [|assumption]. exists k. cbn [objs set_named set_objs]. frame. rewrite nth_error_app1; [assumption|]. eapply nth_error_lt; eauto. }
  assert (forall y, In y (map snd ps) -> extend Γ x t y = None) as F1. { intros y Hy. unfold extend. destruct (text_eqb y x) eqn:E; [apply text_eqb_eq in E; subst; contradiction|]. apply Hf. now right. }
  destruct (IH (S i) (extend Γ x t) σ1 H2 H6 F1 S1) as (A & B & C). split; [|split; [rewrite B|rewrite C]; unfold σ1; frame; reflexivity].
  intros y. specialize (A y). destruct (find_text (named (define_args (S i) ps σ1)) y) as [j|], (known ps y) as [u|] eqn:Eu; cbn beta iota in A |- *; unfold extend in *; rewrite ?Eu in *.
  all: destruct (text_eqb y x) eqn:E; auto. all: apply text_eqb_eq in E; subst y; exfalso; apply H5; clear -Eu; induction ps as [|[a b] ps IHp]; cbn [known map snd] in *; [discriminate Eu|]; unfold extend in Eu; destruct (text_eqb x b) eqn:Eb; [left; symmetry; now apply text_eqb_eq|right; auto].
Qed.
Lemma function_decided ps body : NoDup (map snd ps) -> Forall (fun p => fst p <> TVoid) ps -> forallb simple (map denote_stmt body) = true ->
  (strict = true -> forallb (within_stmt (fun _ _ => true)) (map denote_stmt body) = true) ->
  match glist false (known ps) (map denote_stmt body) with
  | Some _ => exists F, compile llvm19 op_fun fsig ret ps body = Ret F
  | None => fails (compile llvm19 op_fun fsig ret ps body)
  end.
Proof.
  intros Hn Hv Hs Hf. unfold compile. 
  assert (inv (known ps) false (define_function ret ps)) as I.
  { unfold define_function. match goal with |- inv _ _ (define_args 0 ps ?s) => set (σ := s) end.
    assert (scoped_at (fun _ => None) σ /\ loops σ = [] /\ ret_ty σ = ret) as (S0 & L0 & R0). { unfold σ. destruct ret; cbn [new_slot]; split; try (split; frame; reflexivity); intros x; cbn [named]; frame; exact Logic.I. }
    destruct (define_args_ok ps 0 (fun _ => None) σ Hv Hn (fun _ _ => eq_refl) S0) as (A & B & C). constructor; [|rewrite B, L0; reflexivity|congruence].
    intros x. specialize (A x). cbn beta in A. destruct (known ps x); exact A. }
  pose proof (list_decided body (proj2 (Forall_forall decided body) (fun s _ => stmt_decided s)) Hs Hf (known ps) false (define_function ret ps) I) as D. unfold build_stmts.
  destruct (glist false (known ps) (map denote_stmt body)) as [Γ|]; [|cbn [stmt_ok] in D; now apply fails_bind]. destruct D as (σ & -> & _). cbn [obind]. eauto.
Qed.
End Accept.
