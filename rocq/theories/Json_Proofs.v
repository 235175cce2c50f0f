(** Proofs for C78: accesses. *)
From Coq Require Import Ascii String List Bool Arith ZArith Floats.SpecFloat Lia.
Import ListNotations.
From Verif Require Import Base Lexer_Model DType_Spec DType_Model DynObject_Model Op_Model Number_Model Ir_Model Scalar_Model Scalar_Spec
  Lexer_Proofs Scalar_Proofs Function_Model Names_Model StringView_Model Access_Spec Access_Model Json_Spec Json_Model.
Local Open Scope Z_scope.

Definition named (s : Json_Spec.step) : bool := match s with At _ => false | Member _ => true end.
Section Paths.
Context {E : Type}.
Variable arg_ty : E -> option dtype.
Variable arg_value : E -> mem -> outcome (dtype * Z).
Variable var : text -> option (dtype * Z).
Variable text_word : text -> Z.
Variable text_of : Z -> option text.
Hypothesis WORD : forall s, text_of (text_word s) = Some s.
Variable F : Names_Model.factory.
Variable R : Members_Model.index.
Variable H : heap.
Notation run l a m := (run_chain arg_ty arg_value var text_word key_cast (call_json H text_of) getter F R json_ptr a (map AIndex l) m).

(** The walk over nodes *)
Definition go (a : Z) (s : Json_Spec.step) : outcome Z :=
  match s with At i => json_array_get H a (i mod 2 ^ 64) | Member t => json_member_get H a t end.
Fixpoint walk (a : Z) (ss : list Json_Spec.step) : outcome Z :=
  match ss with [] => Ret a | s :: ss => do! b <- go a s; walk b ss end.

Lemma json_ptr_json : is_ptr_to DATA_JSON json_ptr = Ret true. Proof. reflexivity. Qed.
Lemma by_of k s : names var text_of k s -> json_by_name var k = Ret (named s).
Proof.
  intros N. destruct N as [i I|s|x n c w z C V HO EN|x w s V T]; cbn; try reflexivity; rewrite V; [|reflexivity].
  destruct n; cbn in C; inversion C; subst c; reflexivity.
Qed.
Lemma validate ks ss : Forall2 (names var text_of) ks ss ->
  validate_chain arg_ty var getter F R json_ptr (map AIndex ks) =
    Ret (json_ptr, map RIndex ks, map (fun s => UFunc (getter (named s))) ss, map (fun s => json_name (named s)) ss).
Proof.
  intros N. induction N as [|k s ks ss N Ns IH]; [reflexivity|].
  cbn [map validate_chain validate_access]. unfold validate_index. rewrite json_ptr_json. cbn [obind].
  change (has_get json_ptr) with (@Ret bool false). cbn [obind orb negb].
  rewrite (by_of k s N). cbn [obind]. change (get_dtype (CPtr (CBase DATA_JSON))) with json_ptr. rewrite IH. reflexivity.
Qed.
Lemma externs_json ss acc : externs F (map (fun s => UFunc (getter (named s))) ss) acc = Ret (rev (map (fun s => (json_name (named s), getter (named s))) ss) ++ acc).
Proof.
  revert acc. induction ss as [|s ss IH]; intros acc; [reflexivity|].
  cbn [map externs]. rewrite IH. cbn [rev]. rewrite <- app_assoc. reflexivity.
Qed.
Lemma name_inj b c : text_eqb (json_name b) (json_name c) = Bool.eqb b c.
Proof. destruct b, c; reflexivity. Qed.
Lemma find_getter X b : Forall (fun e => exists c, e = (json_name c, getter c)) X -> In (json_name b, getter b) X -> find_text X (json_name b) = Some (getter b).
Proof.
  intros A I. induction X as [|e X IH]; [destruct I|]. inversion A as [|? ? (c & ->) A']; subst. cbn [find_text]. rewrite name_inj.
  destruct (Bool.eqb c b) eqn:Q; [apply eqb_prop in Q; subst; reflexivity|]. destruct I as [I|I]; [|now apply IH].
  exfalso. assert (c = b) as -> by (destruct c, b; cbn in Q; try discriminate; reflexivity || (vm_compute in I; discriminate I)). now rewrite eqb_reflx in Q.
Qed.
Lemma key_word k s m : names var text_of k s -> exists d w w', key_value var text_word k = Ret (d, w) /\
  (do! same <- dtype_eqb d (get_dtype (CBase (if named s then DATA_STRING_VIEW else DATA_U64))); if same then Ret w else key_cast d (get_dtype (CBase (if named s then DATA_STRING_VIEW else DATA_U64))) w m) = Ret w' /\
  match s with At i => w' = i mod 2 ^ 64 | Member t => text_of w' = Some t end.
Proof.
  intros N. destruct N as [i I|s|x n c w z C V HO EN|x w s V T]; cbn [key_value named].
  - exists (get_dtype (CBase DATA_U32)), (wrapu 32 i), i. split; [reflexivity|]. unfold wrapu. rewrite Z.mod_small by lia. split.
    + reflexivity.
    + now rewrite Z.mod_small by lia.
  - exists (get_dtype (CBase DATA_STRING_VIEW)), (text_word s), (text_word s). split; [reflexivity|]. split; [reflexivity|apply WORD].
  - rewrite V. exists (get_dtype (CBase c)), w, (z mod 2 ^ 64). split; [reflexivity|]. split; [|reflexivity].
    pose proof (cast_int n U64 z HO eq_refl) as K. rewrite EN in K. unfold encode in K at 1. cbn [layout] in K.
    destruct n; cbn in C; inversion C; subst c;
      try (match goal with |- (do! _ <- ?e; _) = _ => change e with (@Ret bool false) end; cbn [obind]; unfold key_cast;
        match goal with |- (do! _ <- ?e; _) = _ => change e with (@Ret bool false) end; cbn [obind];
        match goal with |- (do! _ <- ?e; _) = _ => change e with (@Ret bool true) end; cbn [obind negb];
        match goal with |- match num_of ?a with _ => _ end = _ => let r := eval vm_compute in (num_of a) in change (num_of a) with r end;
        change (num_of (get_dtype (CBase DATA_U64))) with (Some U64); cbv iota; rewrite K; reflexivity).
    match goal with |- (do! _ <- ?e; _) = _ => change e with (@Ret bool true) end. cbn [obind]. unfold encode in EN. cbn [layout] in EN. injection EN as <-. reflexivity.
  - rewrite V. exists (get_dtype (CBase 17)), w, w. split; [reflexivity|]. split; [reflexivity|exact T].
Qed.
Lemma build_one X ns idx a k s m : names var text_of k s -> In (json_name (named s), getter (named s)) X ->
  Forall (fun e => exists c, e = (json_name c, getter c)) X -> nth_error ns idx = Some (json_name (named s)) ->
  build_access arg_value var text_word key_cast (call_json H text_of) F X ns idx (Val json_ptr (Imm a)) (RIndex (E := E) k) m =
    (do! b <- go a s; Ret (Val json_ptr (Imm b), m)).
Proof.
  intros N I A NT. destruct (key_word k s m N) as (d & w & w' & KV & KC & KS).
  cbn [build_access]. rewrite KV. cbn [obind]. rewrite NT. unfold call_function. rewrite (find_getter X _ A I).
  cbn [getter d_args length Nat.eqb negb v_ty v_loc word call_words].
  change (dtype_eqb json_ptr json_ptr) with (@Ret bool true). cbn [obind].
  destruct (dtype_eqb d (get_dtype (CBase (if named s then DATA_STRING_VIEW else DATA_U64)))) as [b| | |]; cbn [obind] in *; try discriminate KC.
  rewrite KC. cbn [obind]. unfold call_json. cbn [d_func]. destruct s as [i|t]; cbn [named go] in *.
  - rewrite KS. change (2 =? 1) with false. change (2 =? 2) with true. cbv iota. destruct (json_array_get H a (i mod 2 ^ 64)); reflexivity.
  - rewrite KS. change (1 =? 1) with true. cbv iota. destruct (json_member_get H a t); reflexivity.
Qed.
Lemma nth_error_app_len {A} (l : list A) x r : nth_error (l ++ x :: r) (length l) = Some x.
Proof. induction l; [reflexivity|assumption]. Qed.
Lemma build X ks ss : Forall2 (names var text_of) ks ss -> forall pre a m,
  Forall (fun e => exists c, e = (json_name c, getter c)) X -> (forall s, In s ss -> In (json_name (named s), getter (named s)) X) ->
  build_chain arg_value var text_word key_cast (call_json H text_of) F X (pre ++ map (fun s => json_name (named s)) ss) (length pre) (Val json_ptr (Imm a)) (map (RIndex (E := E)) ks) m =
    (do! b <- walk a ss; Ret (Val json_ptr (Imm b), m)).
Proof.
  intros N. induction N as [|k s ks ss N Ns IH]; intros pre a m A I; [reflexivity|].
  cbn [map build_chain walk]. rewrite (build_one X _ _ a k s m N); [| |exact A|apply nth_error_app_len]; [|apply I; now left].
  destruct (go a s) as [b| | |]; cbn [obind]; try reflexivity.
  specialize (IH (pre ++ [json_name (named s)]) b m A). rewrite <- app_assoc in IH. rewrite app_length in IH. cbn [length app] in IH. rewrite Nat.add_1_r in IH.
  apply IH. intros s' I'. apply I. now right.
Qed.
Lemma run_walk ks ss a m : Forall2 (names var text_of) ks ss ->
  run ks a m = (do! b <- walk a ss; Ret (json_ptr, Val json_ptr (Imm b), m)).
Proof.
  intros N. unfold run_chain. rewrite (validate ks ss N). cbn [obind]. rewrite externs_json. cbn [obind]. rewrite app_nil_r.
  change (map (fun s => json_name (named s)) ss) with ([] ++ map (fun s => json_name (named s)) ss). change 0%nat with (@length text []).
  rewrite (build _ ks ss N); [destruct (walk a ss); reflexivity| |].
  - apply Forall_rev. apply Forall_forall. intros e I. apply in_map_iff in I as (s & <- & _). eauto.
  - intros s I. apply -> in_rev. apply (in_map (fun s => (json_name (named s), getter (named s))) _ _ I).
Qed.

(** ** The walk and the document *)
Lemma forall2_nth {A B} (P : A -> B -> Prop) l l' n y : Forall2 P l l' -> nth_error l' n = Some y -> exists x, nth_error l n = Some x /\ P x y.
Proof. intros F2. revert n. induction F2 as [|x y' l l' P0 F2 IH]; intros [|n] NE; cbn in *; try discriminate NE; [injection NE as <-; eauto|now apply IH]. Qed.
Lemma forall2_len {A B} (P : A -> B -> Prop) l l' : Forall2 P l l' -> length l = length l'.
Proof. induction 1; cbn; congruence. Qed.
Lemma text_eqb_true a b : text_eqb a b = true <-> a = b.
Proof. apply text_eqb_eq. Qed.
Lemma find_part ws (ds : list (text * doc)) s : map fst ws = map fst ds -> NoDup (map fst ds) -> Forall2 (stored H) (map snd ws) (map snd ds) ->
  (forall d, In (s, d) ds -> exists b, find_text ws s = Some b /\ stored H b d) /\
  ((forall d, ~ In (s, d) ds) -> find_text ws s = None).
Proof.
  revert ds. induction ws as [|[k b] ws IH]; intros [|[k' d'] ds] EQ ND ST; cbn in *; try discriminate EQ.
  - split; [intros d []|reflexivity].
  - injection EQ as -> EQ. inversion ND as [|? ? NI ND']; subst. inversion ST as [|? ? ? ? S1 S2]; subst. destruct (IH ds EQ ND' S2) as [I1 I2]. split.
    + intros d [Q|Q].
      * injection Q as -> ->. rewrite (proj2 (text_eqb_true s s) eq_refl). eauto.
      * destruct (text_eqb k' s) eqn:T; [|auto]. apply text_eqb_true in T. subst. exfalso. apply NI. apply in_map_iff. exists (s, d). auto.
    + intros N. destruct (text_eqb k' s) eqn:T; [apply text_eqb_true in T; subst; exfalso; apply (N d'); now left|]. apply I2. intros d Q. apply (N d). now right.
Qed.
Lemma go_part a d s : stored H a d ->
  (forall d', part d s d' -> exists b, go a s = Ret b /\ stored H b d') /\
  (right_kind d s = true -> match s with At i => - 2 ^ 63 <= i < 2 ^ 64 | Member _ => True end -> (forall d', ~ part d s d') -> go a s = UB) /\
  (right_kind d s = false -> go a s = Err).
Proof.
  intros ST. destruct ST as [a Ha|a b Ha|a z Ha Rz|a z Ha Rz|a f Ha Vf|a t Ha|a ws ds Ha Len ST|a ws ds Ha EQ ND ST];
    try (split; [intros d' P; inversion P|]; split; [destruct s; discriminate|]; intros _; destruct s; cbn; unfold json_array_get, json_member_get; now rewrite Ha).
  - pose proof (forall2_len _ _ _ ST) as L. destruct s as [i|t]; [|split; [intros d' P; inversion P|]; split; [discriminate|]; intros _; cbn; unfold json_member_get; now rewrite Ha].
    cbn [go]. unfold json_array_get. rewrite Ha. split; [|split].
    + intros d' P. inversion P as [? ? ? I0 NE|]; subst. destruct (forall2_nth _ _ _ _ _ ST NE) as (b & NB & SB).
      assert (Z.to_nat i < length ws)%nat by (apply nth_error_Some; congruence). rewrite Z.mod_small by lia.
      destruct (Z.ltb_spec i (Z.of_nat (length ws))); [|lia]. rewrite NB. eauto.
    + intros _ B N. destruct (Z.ltb_spec (i mod 2 ^ 64) (Z.of_nat (length ws))) as [LT|]; [|reflexivity]. exfalso.
      destruct (Z_lt_le_dec i 0) as [NEG|POS].
      * replace (i mod 2 ^ 64) with (i + 2 ^ 64) in LT by (apply Z.mod_unique with (q := -1); lia). lia.
      * rewrite Z.mod_small in LT by lia. destruct (nth_error ds (Z.to_nat i)) as [d'|] eqn:NE; [apply (N d'); now constructor|].
        apply nth_error_None in NE. lia.
    + discriminate.
  - destruct s as [i|t]; [split; [intros d' P; inversion P|]; split; [discriminate|]; intros _; cbn; unfold json_array_get; now rewrite Ha|].
    cbn [go]. unfold json_member_get. rewrite Ha. destruct (find_part ws ds t EQ ND ST) as [P1 P2]. split; [|split].
    + intros d' P. inversion P as [|? ? ? I]; subst. destruct (P1 d' I) as (b & -> & SB). eauto.
    + intros _ _ N. rewrite P2; [reflexivity|]. intros d' I. apply (N d'). now constructor.
    + discriminate.
Qed.
Lemma part_dec d s : (exists d', part d s d') \/ (forall d', ~ part d s d').
Proof.
  destruct d; try (right; intros d' P; inversion P; fail).
  - destruct s as [i|t]; [|right; intros d' P; inversion P]. destruct (Z_lt_le_dec i 0); [right; intros d' P; inversion P; lia|].
    destruct (nth_error l (Z.to_nat i)) as [d'|] eqn:NE; [left; exists d'; now constructor|]. right. intros d' P. inversion P. congruence.
  - destruct s as [i|t]; [right; intros d' P; inversion P|].
    assert ((exists d', In (t, d') l) \/ (forall d', ~ In (t, d') l)) as [(d' & I)|N].
    { induction l as [|[k d'] l [(d1 & I)|N]]; [right; intros d' []|left; exists d1; now right|]. destruct (text_eqb k t) eqn:T.
      - apply text_eqb_true in T. subst. left. exists d'. now left.
      - right. intros d1 [Q|Q]; [|now apply (N d1)]. injection Q as -> ->. rewrite (proj2 (text_eqb_true t t) eq_refl) in T. discriminate T. }
    + left. exists d'. now constructor.
    + right. intros d' P. inversion P. now apply (N d').
Qed.
Lemma walk_parts a d ss d' : stored H a d -> parts d ss d' -> exists b, walk a ss = Ret b /\ stored H b d'.
Proof.
  intros ST P. revert a ST. induction P as [|d s d1 l d2 P Ps IH]; intros a ST; [exists a; split; [reflexivity|exact ST]|].
  destruct (go_part a d s ST) as (G & _). destruct (G d1 P) as (b & GB & SB). cbn [walk]. rewrite GB. now apply IH.
Qed.
Lemma step_bounds k s : names var text_of k s -> match s with At i => - 2 ^ 63 <= i < 2 ^ 64 | Member _ => True end.
Proof.
  intros N. destruct N as [i I| |x n c w z C V HO EN|]; try exact I; try exact Logic.I; [lia|].
  unfold holds in HO. destruct n; cbn in C; try discriminate C; cbn [layout] in HO; apply andb_true_iff in HO as [A B]; apply Z.leb_le in A; apply Z.ltb_lt in B; lia.
Qed.
Lemma walk_ret a d ss b : stored H a d -> Forall (fun s => match s with At i => - 2 ^ 63 <= i < 2 ^ 64 | Member _ => True end) ss ->
  walk a ss = Ret b -> exists d', parts d ss d' /\ stored H b d'.
Proof.
  intros ST B. revert a d ST. induction B as [|s ss B Bs IH]; intros a d ST W; cbn [walk] in W.
  - injection W as <-. exists d. split; [constructor|exact ST].
  - destruct (go_part a d s ST) as (G1 & G2 & G3). destruct (part_dec d s) as [(d1 & P)|N].
    + destruct (G1 d1 P) as (c & GC & SC). rewrite GC in W. cbn [obind] in W. destruct (IH c d1 SC W) as (d2 & P2 & S2). exists d2. split; [econstructor; eauto|exact S2].
    + exfalso. destruct (right_kind d s) eqn:RK; [rewrite (G2 eq_refl B N) in W|rewrite (G3 eq_refl) in W]; discriminate W.
Qed.
Lemma walk_app a ss s rest b : walk a ss = Ret b -> walk a (ss ++ s :: rest) = (do! c <- go b s; walk c rest).
Proof. revert a. induction ss as [|s' ss IH]; intros a W; cbn [walk app] in *; [injection W as ->; reflexivity|]. destruct (go a s') as [c| | |]; cbn [obind] in *; try discriminate W. now apply IH. Qed.

Lemma path a d ks ss d' m : stored H a d -> Forall2 (names var text_of) ks ss -> parts d ss d' ->
  exists b, run ks a m = Ret (json_ptr, Val json_ptr (Imm b), m) /\ stored H b d'.
Proof. intros ST N P. destruct (walk_parts a d ss d' ST P) as (b & W & SB). exists b. split; [|exact SB]. rewrite (run_walk ks ss a m N), W. reflexivity. Qed.
Lemma bounds ks ss : Forall2 (names var text_of) ks ss -> Forall (fun s => match s with At i => - 2 ^ 63 <= i < 2 ^ 64 | Member _ => True end) ss.
Proof. induction 1 as [|k s ks ss N Ns IH]; constructor; [now apply (step_bounds k)|exact IH]. Qed.
Lemma path_only a d ks ss m T v m' : stored H a d -> Forall2 (names var text_of) ks ss -> run ks a m = Ret (T, v, m') ->
  exists d' b, parts d ss d' /\ stored H b d' /\ T = json_ptr /\ v = Val json_ptr (Imm b) /\ m' = m.
Proof.
  intros ST N W. rewrite (run_walk ks ss a m N) in W. destruct (walk a ss) as [b| | |] eqn:WE; try discriminate W. cbn [obind] in W. injection W as <- <- <-.
  destruct (walk_ret a d ss b ST (bounds ks ss N) WE) as (d' & P & SB). eauto 10.
Qed.
Lemma path_missing a d ks ss s rest d' m : stored H a d -> Forall2 (names var text_of) ks (ss ++ s :: rest) -> parts d ss d' -> right_kind d' s = true ->
  (forall d'', ~ part d' s d'') -> run ks a m = UB.
Proof.
  intros ST N P RK NP. destruct (walk_parts a d ss d' ST P) as (b & W & SB). rewrite (run_walk ks _ a m N), (walk_app a ss s rest b W).
  destruct (go_part b d' s SB) as (_ & G & _). rewrite G; auto.
  pose proof (bounds _ _ N) as B. rewrite Forall_forall in B. apply B. apply in_app_iff. right. now left.
Qed.
Lemma path_kind a d ks ss s rest d' m : stored H a d -> Forall2 (names var text_of) ks (ss ++ s :: rest) -> parts d ss d' -> right_kind d' s = false ->
  run ks a m = Err.
Proof.
  intros ST N P RK. destruct (walk_parts a d ss d' ST P) as (b & W & SB). rewrite (run_walk ks _ a m N), (walk_app a ss s rest b W).
  destruct (go_part b d' s SB) as (_ & _ & G). now rewrite G.
Qed.
(** A variable of type std::string_view as a key *)
Lemma std_key a x w m : var x = Some (get_dtype (CBase DATA_STD_STRING_VIEW), w) ->
  (exists r, validate_chain arg_ty var getter F R json_ptr [AIndex (KVar x)] = Ret r) /\ run [KVar x] a m = Err.
Proof.
  intros V. unfold run_chain. cbn [map validate_chain validate_access]. unfold validate_index. rewrite json_ptr_json. cbn [obind].
  change (has_get json_ptr) with (@Ret bool false). cbn [obind orb negb json_by_name]. rewrite V. cbn [obind]. split; [eexists; reflexivity|].
  match goal with |- context [if is_integer ?d then ?a else ?b] => change (if is_integer d then a else b) with (@Ret bool true) end.
  cbn [externs obind app build_chain build_access key_value]. rewrite V. reflexivity.
Qed.
End Paths.
