From Coq Require Import Ascii List Bool Arith ZArith Lia.
Import ListNotations.
From Verif Require Import Base Lexer_Model SrcLine_Model SrcLine_Spec.

(** A text up to p is the lines before p, joined, and the beginning of the line. *)
Opaque nl.
Definition no_nl (t : text) : Prop := ~ In nl t.
Fixpoint join (ls : list text) : text := match ls with [] => [] | l :: ls' => l ++ nl :: join ls' end.

Lemma nl_eqb c : Ascii.eqb c nl = true <-> c = nl.
Proof. apply Ascii.eqb_eq. Qed.
Lemma newlines_app a b : newlines (a ++ b) = newlines a + newlines b.
Proof. induction a; cbn; auto. rewrite IHa. lia. Qed.
Lemma newlines_none t : no_nl t -> newlines t = 0.
Proof.
  induction t as [|c t IH]; cbn [newlines]; auto. intros H. destruct (Ascii.eqb c nl) eqn:E. apply nl_eqb in E. subst. exfalso. apply H. now left.
  apply IH. intros Hin. apply H. now right.
Qed.
Lemma until_app t r : no_nl t -> until_newline (t ++ nl :: r) = t.
Proof.
  induction t as [|c t IH]; cbn [app until_newline]. now rewrite (proj2 (nl_eqb nl) eq_refl). intros H.
  destruct (Ascii.eqb c nl) eqn:E. apply nl_eqb in E. subst. exfalso. apply H. now left. rewrite IH; auto. intros Hin. apply H. now right.
Qed.
Lemma until_all t : no_nl t -> until_newline t = t.
Proof.
  induction t as [|c t IH]; cbn [until_newline]; auto. intros H.
  destruct (Ascii.eqb c nl) eqn:E. apply nl_eqb in E. subst. exfalso. apply H. now left. rewrite IH; auto. intros Hin. apply H. now right.
Qed.
Lemma no_nl_rev t : no_nl t -> no_nl (rev t).
Proof. unfold no_nl. intros H Hin. apply H. now apply in_rev. Qed.
Lemma until_no_nl t : no_nl (until_newline t).
Proof. induction t as [|c t IH]; cbn. intros []. destruct (Ascii.eqb c nl) eqn:E. intros []. intros [->|H]; auto. now rewrite (proj2 (nl_eqb nl) eq_refl) in E. Qed.
Lemma newlines_join ls : Forall no_nl ls -> newlines (join ls) = length ls.
Proof.
  induction 1; cbn [join length]; auto. rewrite newlines_app, newlines_none by auto. cbn [newlines]. rewrite (proj2 (nl_eqb nl) eq_refl), IHForall. reflexivity.
Qed.

(** Splitting at offset p. *)
Lemma split_head t : exists ls b, Forall no_nl ls /\ no_nl b /\ t = join ls ++ b.
Proof.
  induction t as [|c t (ls & b & Hls & Hb & ->)]. exists [], []. split; [constructor|]. split; auto. intros [].
  destruct (Ascii.eqb c nl) eqn:E.
  - apply nl_eqb in E. subst c. exists ([] :: ls), b. split; auto. constructor; auto. intros [].
  - assert (c <> nl) as Hc by (intros ->; rewrite (proj2 (nl_eqb nl) eq_refl) in E; discriminate). destruct ls as [|l ls].
    + exists [], (c :: b). split; auto. split; auto. intros [->|H]; auto.
    + inversion Hls; subst. exists ((c :: l) :: ls), b. split; auto. constructor; auto. intros [->|H]; auto.
Qed.
Lemma split_tail t : exists b r, no_nl b /\ until_newline t = b /\ (t = b /\ r = None \/ exists r', r = Some r' /\ t = b ++ nl :: r').
Proof.
  induction t as [|c t (b & r & Hb & Hu & Ht)]; cbn [until_newline]. exists [], None. split; auto. intros [].
  destruct (Ascii.eqb c nl) eqn:E.
  - apply nl_eqb in E. subst c. exists [], (Some t). split. intros []. split; auto. right. exists t. auto.
  - assert (c <> nl) as Hc by (intros ->; rewrite (proj2 (nl_eqb nl) eq_refl) in E; discriminate).
    exists (c :: b), r. split. intros [->|H]; auto. split. congruence. destruct Ht as [[-> ->]|(r' & -> & ->)]; [left|right; exists r']; auto.
Qed.

Lemma lines_line l r : no_nl l -> source_lines (l ++ nl :: r) = l :: source_lines r.
Proof.
  induction l as [|c l IH]; cbn [app source_lines]. now rewrite (proj2 (nl_eqb nl) eq_refl). intros H.
  destruct (Ascii.eqb c nl) eqn:E. apply nl_eqb in E. subst. exfalso. apply H. now left. rewrite IH; auto. intros Hin. apply H. now right.
Qed.
Lemma lines_last l : no_nl l -> source_lines l = [l].
Proof.
  induction l as [|c l IH]; cbn [source_lines]; auto. intros H.
  destruct (Ascii.eqb c nl) eqn:E. apply nl_eqb in E. subst. exfalso. apply H. now left. rewrite IH; auto. intros Hin. apply H. now right.
Qed.
Lemma lines_join ls r : Forall no_nl ls -> source_lines (join ls ++ r) = ls ++ source_lines r.
Proof. induction 1; cbn [join app]; auto. rewrite <- app_assoc. cbn [app]. rewrite lines_line by auto. now rewrite IHForall. Qed.

Fixpoint total (ls : list text) : nat := match ls with [] => 0 | l :: ls' => length l + total ls' end.
Lemma join_length ls : length (join ls) = total ls + length ls.
Proof. induction ls; cbn [join total length]; auto. rewrite app_length. cbn [length]. lia. Qed.
Lemma lines_total src : total (source_lines src) + length (source_lines src) = length src + 1.
Proof.
  induction src as [|c src IH]; cbn [source_lines]; auto. destruct (Ascii.eqb c nl); cbn [total length]. lia.
  destruct (source_lines src) as [|l ls]; cbn [total length] in *; lia.
Qed.

Local Open Scope Z_scope.

(** The loop without machine arithmetic. *)
Fixpoint find_plain (pos cursor lineno : Z) (lines : list text) : option text * Z :=
  match lines with
  | [] => (None, lineno)
  | l :: ls => if pos <=? cursor + size l then (Some l, lineno) else find_plain pos (cursor + size l) (lineno + 1) ls
  end.
Lemma find_line_plain pos ls : forall cursor lineno, 0 <= cursor -> 0 <= lineno -> cursor + Z.of_nat (total ls) < 2 ^ 32 -> lineno + Z.of_nat (length ls) < 2 ^ 32 ->
  find_line pos cursor lineno ls = find_plain pos cursor lineno ls.
Proof.
  induction ls as [|l ls IH]; intros cursor lineno H1 H2 H3 H4; cbn [find_line find_plain]; auto. cbn [total length] in *.
  assert (0 <= size l) by (unfold size; lia). assert (size l = Z.of_nat (length l)) by reflexivity. pows.
  rewrite (wrapu_id 64) by (unfold in_u; lia). rewrite (wrapu_id 32 (cursor + size l)) by (unfold in_u; lia). rewrite (wrapu_id 32 (lineno + 1)) by (unfold in_u; lia).
  destruct (_ <=? _); auto. apply IH; lia.
Qed.
Lemma find_plain_skip pos ls r : forall cursor lineno, cursor + Z.of_nat (total ls) < pos ->
  find_plain pos cursor lineno (ls ++ r) = find_plain pos (cursor + Z.of_nat (total ls)) (lineno + Z.of_nat (length ls)) r.
Proof.
  induction ls as [|l ls IH]; intros cursor lineno H; cbn [app total length find_plain]. now rewrite !Z.add_0_r.
  cbn [total] in H. assert (size l = Z.of_nat (length l)) as E by reflexivity. rewrite (proj2 (Z.leb_gt pos (cursor + size l))) by lia. rewrite IH by lia. f_equal; lia.
Qed.
Lemma find_plain_ge pos ls : forall cursor lineno, lineno <= snd (find_plain pos cursor lineno ls).
Proof. induction ls as [|l ls IH]; intros; cbn [find_plain]. cbn. lia. destruct (_ <=? _). cbn. lia. specialize (IH (cursor + size l) (lineno + 1)). lia. Qed.
Lemma find_plain_le pos ls : forall cursor lineno, snd (find_plain pos cursor lineno ls) <= lineno + Z.of_nat (length ls).
Proof. induction ls as [|l ls IH]; intros; cbn [find_plain length]. cbn. lia. destruct (_ <=? _). cbn. lia. specialize (IH (cursor + size l) (lineno + 1)). lia. Qed.

(** Everything about one position. *)
Record at_pos (src : text) (p : nat) (ls : list text) (b a : text) (after : list text) : Prop := {
  ap_ls : Forall no_nl ls; ap_b : no_nl b; ap_a : no_nl a;
  ap_lines : source_lines src = ls ++ (b ++ a) :: after;
  ap_p : p = (total ls + length ls + length b)%nat;
  ap_line : line_of src p = S (length ls);
  ap_col : column_of src p = length b;
  ap_text : line_text src p = b ++ a
}.
Lemma locate src p : (p <= length src)%nat -> exists ls b a after, at_pos src p ls b a after.
Proof.
  intros Hp. destruct (split_head (firstn p src)) as (ls & b & Hls & Hb & E1). destruct (split_tail (skipn p src)) as (a & r & Ha & Hu & E2).
  assert (p = length (firstn p src)) as Hlen by (rewrite firstn_length; lia).
  assert (until_newline (rev (firstn p src)) = rev b) as Hrev.
  { rewrite E1, rev_app_distr. destruct ls as [|l ls0] using rev_ind. cbn [join rev]. rewrite app_nil_r. apply until_all. now apply no_nl_rev.
    assert (exists x, join (ls0 ++ [l]) = x ++ [nl]) as (x & ->).
    { clear. induction ls0 as [|m ls0 IH]. exists l. reflexivity. destruct IH as (x & IH). exists (m ++ nl :: x). cbn [app join]. rewrite IH. now rewrite <- app_assoc. }
    rewrite rev_app_distr. cbn [rev app]. apply until_app. now apply no_nl_rev. }
  assert (no_nl (b ++ a)) as Hba. { unfold no_nl. intros Hin. apply in_app_or in Hin as [H|H]; contradiction. }
  exists ls, b, a, (match r with None => [] | Some r' => source_lines r' end). constructor; auto.
  - rewrite <- (firstn_skipn p src), E1, <- app_assoc, lines_join by auto. f_equal. destruct E2 as [[E2 ->]|(r' & -> & E2)]; rewrite E2.
    + now rewrite lines_last. 
    + rewrite app_assoc. now rewrite lines_line.
  - rewrite Hlen, E1, app_length, join_length. lia.
  - unfold line_of. rewrite E1, newlines_app, newlines_join, (newlines_none b) by auto. lia.
  - unfold column_of. now rewrite Hrev, rev_length.
  - unfold line_text. now rewrite Hrev, rev_involutive, Hu.
Qed.

Lemma find_at src p ls b a after : at_pos src p ls b a after -> Z.of_nat (length src) + 2 < 2 ^ 32 ->
  (length b + length ls <= length (b ++ a))%nat ->
  find_line (Z.of_nat p) 0 1 (source_lines src) = (Some (b ++ a), Z.of_nat (S (length ls))).
Proof.
  intros H Hs Hc. pose proof (lines_total src) as HT. rewrite find_line_plain by lia. destruct H. rewrite ap_lines0.
  destruct ls as [|l0 ls0].
  - cbn [app find_plain total length] in *. rewrite (proj2 (Z.leb_le _ _)); auto. unfold size. rewrite app_length. lia.
  - rewrite find_plain_skip by (cbn [length] in *; lia). cbn [find_plain]. assert (size (b ++ a) = Z.of_nat (length (b ++ a))) as E by reflexivity.
    rewrite (proj2 (Z.leb_le _ _)) by lia. f_equal. lia.
Qed.
Lemma find_past src p ls b a after : at_pos src p ls b a after -> Z.of_nat (length src) + 2 < 2 ^ 32 ->
  (length (b ++ a) < length b + length ls)%nat ->
  Z.of_nat (S (length ls)) < snd (find_line (Z.of_nat p) 0 1 (source_lines src)).
Proof.
  intros H Hs Hc. pose proof (lines_total src) as HT. rewrite find_line_plain by lia. destruct H. rewrite ap_lines0.
  rewrite find_plain_skip. 2: { rewrite app_length in Hc. lia. }
  cbn [find_plain]. assert (size (b ++ a) = Z.of_nat (length (b ++ a))) as E by reflexivity. rewrite (proj2 (Z.leb_gt _ _)) by lia.
  pose proof (find_plain_ge (Z.of_nat p) after (0 + Z.of_nat (total ls) + size (b ++ a)) (1 + Z.of_nat (length ls) + 1)). lia.
Qed.

Lemma line_small src p : Z.of_nat (length src) + 2 < 2 ^ 31 -> get_line_no src p = snd (find_line p 0 1 (source_lines src)).
Proof.
  intros Hs. unfold get_line_no. pose proof (lines_total src) as HT. pows. rewrite find_line_plain by lia. apply wraps_id; [lia|]. unfold in_s.
  pose proof (find_plain_ge p (source_lines src) 0 1). pose proof (find_plain_le p (source_lines src) 0 1). pows.
  change (2 ^ (32 - 1)) with (2 ^ 31). lia.
Qed.

Lemma line_right src p : (p <= length src)%nat -> Z.of_nat (length src) + 2 < 2 ^ 31 ->
  (column_of src p + (line_of src p - 1) <= length (line_text src p))%nat ->
  get_line_no src (Z.of_nat p) = Z.of_nat (line_of src p) /\ get_error_line src (Z.of_nat p) = Some (Z.of_nat (line_of src p), line_text src p) /\
  get_source_line src (Z.of_nat (line_of src p)) = line_text src p.
Proof.
  intros Hp Hs Hc. destruct (locate src p Hp) as (ls & b & a & after & H). pose proof H as H0. destruct H0.
  rewrite ap_line0, ap_col0, ap_text0 in *. assert (Z.of_nat (length src) + 2 < 2 ^ 32) as Hs' by (pows; lia).
  pose proof (find_at _ _ _ _ _ _ H Hs' ltac:(lia)) as E.
  rewrite line_small by auto. unfold get_error_line. rewrite E. split; auto. split; auto.
  unfold get_source_line. rewrite ap_lines0, app_length. cbn [length].
  replace ((0 <=? Z.of_nat (S (length ls)) - 1) && (Z.of_nat (S (length ls)) - 1 <? Z.of_nat (length ls + S (length after)))) with true.
  2: { symmetry. apply andb_true_iff. split; [apply Z.leb_le|apply Z.ltb_lt]; lia. }
  replace (Z.to_nat (Z.of_nat (S (length ls)) - 1)) with (length ls) by lia. rewrite app_nth2 by lia. now rewrite Nat.sub_diag.
Qed.
Lemma line_wrong src p : (p <= length src)%nat -> Z.of_nat (length src) + 2 < 2 ^ 31 ->
  (length (line_text src p) < column_of src p + (line_of src p - 1))%nat ->
  Z.of_nat (line_of src p) < get_line_no src (Z.of_nat p).
Proof.
  intros Hp Hs Hc. destruct (locate src p Hp) as (ls & b & a & after & H). pose proof H as H0. destruct H0.
  rewrite ap_line0, ap_col0, ap_text0 in *. assert (Z.of_nat (length src) + 2 < 2 ^ 32) as Hs' by (pows; lia).
  rewrite line_small by auto. now apply (find_past _ _ _ _ _ _ H Hs' ltac:(lia)).
Qed.
