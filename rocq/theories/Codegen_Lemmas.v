(** Straight-line code: the postfix form of a tree, the tables, and the operations of the generator. *)
From Coq Require Import Ascii String List Bool Arith ZArith Lia.
Import ListNotations.
From Verif Require Import Base Lexer_Model Lexer_Proofs Op_Model Op_Lemmas Number_Model Parser_Model Parser_Spec Parser_Print Ir_Model Codegen_Model Codegen_Spec.

(** *** The postfix form depends only on the tree *)
Fixpoint emitE (e : expr) : list node :=
  match e with
  | EBool b => [N_bool b]
  | ENum v ty => [N_num v ty]
  | EVar x => [N_var x]
  | ECall f es =>
      match builtin_op f with
      | Some op => flat_map emitE es ++ [N_op op]
      | None => if other_name f then [N_other] else [N_call f (map emitE es)]
      end
  | EDef x => [N_def x]
  | EUn op a => emitE a ++ [N_op op]
  | EBin op a b => emitE a ++ emitE b ++ [N_op op]
  | ECond c a b => emitE c ++ emitE a ++ emitE b ++ [N_op OP_CONDITIONAL]
  | _ => [N_other]
  end.

Section OpInd.
Variable P : operand -> Prop.
Hypothesis Hbool : forall b, P (O_bool b).
Hypothesis Hnum : forall v ty, P (O_num v ty).
Hypothesis Hstr : forall t, P (O_str t).
Hypothesis Hacc : forall n a c p, P (O_var n (Some a) c p).
Hypothesis Hvar : forall n p, P (O_var n None None p).
Hypothesis Hcall0 : forall n p, P (O_var n None (Some None) p).
Hypothesis Hcall : forall n l p, Forall P l -> P (O_var n None (Some (Some l)) p).
Hypothesis Hsel : forall c a b, P c -> P a -> P b -> P (O_select c (a, b)).
Hypothesis Hbin : forall l r p, P l -> Forall (fun x => P (snd x)) r -> P (O_bin l r p).
Hypothesis Hun : forall op x p, P x -> P (O_un op x p).
Hypothesis Hdef : forall n p, P (O_def n p).
Hypothesis Harr : forall es p, P (O_array es p).
Fixpoint operand_ind2 (o : operand) : P o :=
  match o with
  | O_bool b => Hbool b
  | O_num v ty => Hnum v ty
  | O_str t => Hstr t
  | O_var n (Some a) c p => Hacc n a c p
  | O_var n None None p => Hvar n p
  | O_var n None (Some None) p => Hcall0 n p
  | O_var n None (Some (Some l)) p =>
      Hcall n l p ((fix go l : Forall P l := match l with [] => Forall_nil P | a :: l' => Forall_cons a (operand_ind2 a) (go l') end) l)
  | O_select c (a, b) => Hsel c a b (operand_ind2 c) (operand_ind2 a) (operand_ind2 b)
  | O_bin l r p =>
      Hbin l r p (operand_ind2 l)
        ((fix go r : Forall (fun x => P (snd x)) r :=
            match r with [] => Forall_nil _ | x :: r' => Forall_cons x (operand_ind2 (snd x)) (go r') end) r)
  | O_un op x p => Hun op x p (operand_ind2 x)
  | O_def n p => Hdef n p
  | O_array es p => Harr es p
  end.
End OpInd.

Lemma emit_denote o : emit o = emitE (denote o).
Proof.
  induction o as [| | | | | |n l p IH|c a b IHc IHa IHb|l r p IHl IHr|op x p IH| |] using operand_ind2; try reflexivity.
  - cbn [emit denote emitE]. assert (flat_map emit l = flat_map emitE (map denote l) /\ map emit l = map emitE (map denote l)) as [E1 E2].
    { clear p. induction IH as [|a l E _ [I1 I2]]; [split; reflexivity|]. cbn [flat_map map]. rewrite I1, I2, E. split; reflexivity. }
    rewrite E1, E2. reflexivity.
  - cbn [emit denote emitE]. rewrite IHc, IHa, IHb. reflexivity.
  - cbn [emit denote]. rewrite IHl. clear IHl. generalize (denote l) as e. induction IHr as [|[op y] r E _ IH]; intros e; cbn [flat_map map fold_left].
    + now rewrite app_nil_r.
    + rewrite <- IH. cbn [snd fst] in *. cbn [emitE]. rewrite E, <- !app_assoc. reflexivity.
  - cbn [emit]. rewrite IH. destruct op; cbn [denote emitE]; [reflexivity|now rewrite app_nil_r].
Qed.

(** *** Tables *)
Lemma text_eqb_refl t : text_eqb t t = true.
Proof. now apply text_eqb_eq. Qed.
Lemma text_eqb_sym a b : text_eqb a b = text_eqb b a.
Proof. apply eq_true_iff_eq. rewrite !text_eqb_eq. split; congruence. Qed.
Lemma vty_eqb_eq a b : vty_eqb a b = true <-> a = b.
Proof. unfold vty_eqb. destruct (vty_eq_dec a b); split; congruence. Qed.
Lemma vty_eqb_refl a : vty_eqb a a = true.
Proof. now apply vty_eqb_eq. Qed.
Lemma vty_eqb_neq a b : vty_eqb a b = false <-> a <> b.
Proof. unfold vty_eqb. destruct (vty_eq_dec a b); split; congruence. Qed.

Lemma find_map_text {A} (l : list A) (f : A -> text) x :
  find (fun a => text_eqb (f a) x) l = find_text (map (fun a => (f a, a)) l) x.
Proof. induction l as [|a l IH]; [reflexivity|]. cbn [find map find_text]. destruct (text_eqb (f a) x); auto. Qed.
Lemma find_text_map {A B} (l : list (text * A)) (g : A -> B) x :
  find_text (map (fun p => (fst p, g (snd p))) l) x = option_map g (find_text l x).
Proof. induction l as [|[t a] l IH]; [reflexivity|]. cbn [find_text map fst snd]. destruct (text_eqb t x); auto. Qed.
Lemma builtin_op_table x : builtin_op x = option_map fst (find_text function_operators x).
Proof. unfold builtin_op. rewrite find_map_text. rewrite <- find_text_map. reflexivity. Qed.
Lemma find_text_in {A} (l : list (text * A)) x a : find_text l x = Some a -> In (x, a) l.
Proof.
  induction l as [|[t b] l IH]; [discriminate|]. cbn [find_text]. destruct (text_eqb t x) eqn:E; [|intros; right; auto].
  apply text_eqb_eq in E. injection 1 as ->. subst. now left.
Qed.
Lemma function_arity x op k : find_text function_operators x = Some (op, k) -> operand_count op = Some k.
Proof.
  intros H. apply find_text_in in H.
  assert (forallb (fun p => match operand_count (fst (snd p)) with Some j => j =? snd (snd p) | None => false end) function_operators = true) as A
    by (vm_compute; reflexivity).
  rewrite forallb_forall in A. specialize (A _ H). cbn [fst snd] in A. destruct (operand_count op); [|discriminate].
  apply Nat.eqb_eq in A. now subst.
Qed.
Lemma function_not_assign x op k : find_text function_operators x = Some (op, k) -> plain_op op = (op, false) /\ op <> OP_ASSIGN /\ op <> OP_CONDITIONAL.
Proof.
  intros H. apply find_text_in in H. cbn [function_operators In] in H.
  repeat (destruct H as [H|H]; [injection H; intros <- <- _; repeat split; try reflexivity; discriminate|]). destruct H.
Qed.
Lemma infix_arity op : existsb (optok_eqb op) infix_ops = true -> operand_count op = Some 2 /\ plain_op op = (op, false) /\ op <> OP_ASSIGN.
Proof.
  intros H. apply existsb_exists in H as (o & Hin & E). apply optok_eqb_eq in E. subst o. cbn [infix_ops In] in Hin.
  repeat (destruct Hin as [<-|Hin]; [repeat split; try reflexivity; discriminate|]). destruct Hin.
Qed.
Lemma prefix_arity op : existsb (optok_eqb op) prefix_ops = true -> operand_count op = Some 1.
Proof.
  intros H. apply existsb_exists in H as (o & Hin & E). apply optok_eqb_eq in E. subst o. cbn [prefix_ops In] in Hin.
  repeat (destruct Hin as [<-|Hin]; [reflexivity|]). destruct Hin.
Qed.
Lemma core_un l op t : operand_count op = Some 1 -> core l op t = un_builtin l op t.
Proof. destruct op; try discriminate; intros _; destruct t as [| |[]], l; reflexivity. Qed.
Lemma core_bin l op t : operand_count op = Some 2 -> plain_op op = (op, false) -> core l op t = bin_builtin op t.
Proof. destruct op; try discriminate; intros _ _; destruct t as [| |[]], l; reflexivity. Qed.
Lemma core_tern l op t : operand_count op = Some 3 -> core l op t = tern_builtin op t.
Proof. destruct op; try discriminate; intros _; destruct t as [| |[]], l; reflexivity. Qed.
Lemma compare_table op : comparison op = is_compare_op op.
Proof. destruct op; reflexivity. Qed.

Lemma wider_code a b : wider a b = if (num_code a <? num_code b)%Z then b else a.
Proof. destruct a, b; reflexivity. Qed.
(** NormalizeDType on number types is the widest type. *)
Lemma max_num_nums l m : max_num (Some m) (map TNum l) = Some (fold_left wider l m).
Proof.
  revert m. induction l as [|n l IH]; intros m; [reflexivity|]. cbn [map max_num fold_left]. rewrite wider_code.
  destruct (num_code m <? num_code n)%Z; apply IH.
Qed.
Lemma wider_assoc a b c : wider (wider a b) c = wider a (wider b c).
Proof. destruct a, b, c; reflexivity. Qed.
Lemma normalize_nums l t : l <> [] -> Forall (fun a => a <> TVoid) l -> normalize l = Ret t ->
  exists ns, l = map TNum ns /\ option_map TNum (widest l) = Some t.
Proof.
  intros Hne Hv H. unfold normalize in H.
  destruct (forallb (fun d => can_cast d (match max_num None l with Some n => Some (TNum n) | None => None end)) l) eqn:E; [|discriminate].
  destruct (max_num None l) as [m|] eqn:Em; [|discriminate]. injection H as <-.
  assert (exists ns, l = map TNum ns) as (ns & ->).
  { clear Em Hne. induction l as [|a l IH]; [now exists []|]. cbn [forallb] in E. apply andb_true_iff in E as [E1 E2]. inversion Hv; subst.
    destruct IH as (ns & ->); auto. destruct a as [| |n]; try congruence.
    - cbn [can_cast] in E1. apply vty_eqb_eq in E1. discriminate.
    - now exists (n :: ns). }
  exists ns. split; [reflexivity|]. destruct ns as [|n ns]; [now elim Hne|]. clear Hne Hv E. cbn [map max_num] in Em. rewrite max_num_nums in Em. injection Em as <-.
  revert n. induction ns as [|k ns IH]; intros n; [reflexivity|]. change (widest (map TNum (n :: k :: ns))) with (match widest (map TNum (k :: ns)) with Some m => Some (wider n m) | None => None end).
  specialize (IH k). destruct (widest (map TNum (k :: ns))) as [m|]; [|discriminate]. injection IH as ->. cbn [option_map fold_left]. f_equal. f_equal.
  clear. revert n k. induction ns as [|j ns IH]; intros n k; [reflexivity|]. cbn [fold_left]. rewrite IH. now rewrite wider_assoc.
Qed.
Lemma in_widest ns t : option_map TNum (widest (map TNum ns)) = Some t -> exists n, t = TNum n.
Proof. destruct (widest _); [|discriminate]. cbn. injection 1 as <-. eauto. Qed.

(** *** Lists *)
Lemma set_nth_length {A} k (a : A) l : k < length l -> length (set_nth k a l) = length l.
Proof. intros H. unfold set_nth. rewrite app_length, firstn_length. cbn [length]. rewrite skipn_length. lia. Qed.
Lemma set_nth_same {A} k (a : A) l : k < length l -> nth_error (set_nth k a l) k = Some a.
Proof.
  intros H. unfold set_nth. rewrite nth_error_app2; rewrite firstn_length; [|lia]. replace (k - _) with 0 by lia. reflexivity.
Qed.
Lemma set_nth_other {A} k j (a : A) l : k < length l -> j <> k -> nth_error (set_nth k a l) j = nth_error l j.
Proof.
  intros H Hj. unfold set_nth. rewrite <- (firstn_skipn k l) at 3. destruct (Nat.lt_ge_cases j k).
  - rewrite !nth_error_app1; try (rewrite firstn_length; lia). reflexivity.
  - rewrite !nth_error_app2; try (rewrite firstn_length; lia). rewrite firstn_length. replace (Nat.min k (length l)) with k by lia.
    destruct (j - k) as [|d] eqn:E; [lia|]. change (S k) with (1 + k). rewrite <- (firstn_skipn 1 (skipn k l)) at 1.
    destruct (skipn k l) eqn:F. { apply (f_equal (@length A)) in F. rewrite skipn_length in F. cbn [length] in F. lia. }
    cbn [nth_error firstn app skipn]. change (1 + k) with (S k).
    replace (skipn (S k) l) with l0; [reflexivity|]. clear - F. revert l F. induction k; intros l F. { destruct l; [discriminate|]. cbn in F. now injection F. }
    destruct l; [discriminate|]. cbn [skipn] in *. now apply IHk.
Qed.
Lemma nth_error_lt {A} (l : list A) k a : nth_error l k = Some a -> k < length l.
Proof. intros H. apply nth_error_Some. congruence. Qed.

(** *** Appending to a block *)
Definition emit_at (b : nat) (l : list item) (F : cfg) : cfg :=
  match nth_error F b with Some x => set_nth b (Blk (b_in x) (b_items x ++ l)) F | None => F end.
Lemma put_emit i σ : put i σ = set_blks (emit_at (cur σ) [i] (blks σ)) σ.
Proof. unfold put, emit_at. destruct (nth_error _ _); [reflexivity|]. destruct σ; reflexivity. Qed.
Lemma emit_at_length b l F : length (emit_at b l F) = length F.
Proof. unfold emit_at. destruct (nth_error F b) eqn:E; [|reflexivity]. apply set_nth_length. eapply nth_error_lt; eauto. Qed.
Lemma emit_at_same b l F x : nth_error F b = Some x -> nth_error (emit_at b l F) b = Some (Blk (b_in x) (b_items x ++ l)).
Proof. intros E. unfold emit_at. rewrite E. apply set_nth_same. eapply nth_error_lt; eauto. Qed.
Lemma emit_at_other b l F c : c <> b -> nth_error (emit_at b l F) c = nth_error F c.
Proof. intros H. unfold emit_at. destruct (nth_error F b) eqn:E; [|reflexivity]. apply set_nth_other; auto. eapply nth_error_lt; eauto. Qed.
Lemma nth_ext_eq {A} (l l' : list A) : (forall k, nth_error l k = nth_error l' k) -> l = l'.
Proof.
  revert l'. induction l as [|a l IH]; intros [|b l'] H; auto.
  - specialize (H 0). discriminate.
  - specialize (H 0). discriminate.
  - pose proof (H 0) as H0. injection H0 as ->. f_equal. apply IH. intros k. exact (H (S k)).
Qed.
Lemma emit_at_app b l1 l2 F : emit_at b l2 (emit_at b l1 F) = emit_at b (l1 ++ l2) F.
Proof.
  apply nth_ext_eq. intros k. destruct (Nat.eq_dec k b) as [->|Hk].
  - destruct (nth_error F b) as [x|] eqn:E.
    + rewrite (emit_at_same _ _ _ _ (emit_at_same _ l1 _ _ E)), (emit_at_same _ _ _ _ E). cbn [b_in b_items]. now rewrite app_assoc.
    + unfold emit_at at 2. rewrite E. unfold emit_at. now rewrite E.
  - now rewrite !emit_at_other.
Qed.
Lemma emit_at_nil b F : emit_at b [] F = F.
Proof.
  apply nth_ext_eq. intros k. destruct (Nat.eq_dec k b) as [->|Hk]; [|now apply emit_at_other].
  destruct (nth_error F b) as [x|] eqn:E; [|unfold emit_at; now rewrite E]. rewrite (emit_at_same _ _ _ _ E). rewrite app_nil_r. now destruct x.
Qed.

(** *** What straight-line code changes in the generator *)
Record pext (xs : list inst) (σ σ' : cg) : Prop := {
  x_blks : blks σ' = emit_at (cur σ) (map Ins xs) (blks σ);
  x_cur : cur σ' = cur σ;
  x_nreg : nreg σ <= nreg σ';
  x_nslot : nslot σ' = nslot σ;
  x_objs : exists os, objs σ' = objs σ ++ os;
  x_named : named σ' = named σ;
  x_loops : loops σ' = loops σ;
  x_exit : exit_b σ' = exit_b σ;
  x_rty : ret_ty σ' = ret_ty σ;
  x_rslot : ret_slot σ' = ret_slot σ }.
Lemma pext_refl σ : pext [] σ σ.
Proof. constructor; auto. now rewrite emit_at_nil. exists []. now rewrite app_nil_r. Qed.
Lemma pext_trans xs ys σ σ1 σ2 : pext xs σ σ1 -> pext ys σ1 σ2 -> pext (xs ++ ys) σ σ2.
Proof.
  intros A B. constructor.
  - rewrite (x_blks _ _ _ B), (x_cur _ _ _ A), (x_blks _ _ _ A), emit_at_app, map_app. reflexivity.
  - rewrite (x_cur _ _ _ B). apply A.
  - pose proof (x_nreg _ _ _ A). pose proof (x_nreg _ _ _ B). lia.
  - rewrite (x_nslot _ _ _ B). apply A.
  - destruct (x_objs _ _ _ A) as (o1 & E1), (x_objs _ _ _ B) as (o2 & E2). exists (o1 ++ o2). rewrite E2, E1. now rewrite app_assoc.
  - rewrite (x_named _ _ _ B). apply A.
  - rewrite (x_loops _ _ _ B). apply A.
  - rewrite (x_exit _ _ _ B). apply A.
  - rewrite (x_rty _ _ _ B). apply A.
  - rewrite (x_rslot _ _ _ B). apply A.
Qed.
