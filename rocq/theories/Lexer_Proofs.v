From Coq Require Import Ascii String List Bool Arith Lia.
Import ListNotations.
From Verif Require Import Base Lexer_Model Lexer_Spec.

(** ** Characters *)
Lemma all_ascii (P : ascii -> bool) :
  forallb P (map ascii_of_nat (seq 0 256)) = true -> forall c, P c = true.
Proof.
  intros H c. rewrite forallb_forall in H. apply H. apply in_map_iff. exists (nat_of_ascii c).
  split. apply ascii_nat_embedding. apply in_seq. pose proof (nat_ascii_bounded c). lia.
Qed.

Definition memb (c : ascii) (l : text) : bool := existsb (Ascii.eqb c) l.
Lemma memb_In c l : memb c l = true <-> In c l.
Proof.
  unfold memb. rewrite existsb_exists. split.
  - intros (x & Hx & E). apply Ascii.eqb_eq in E. now subst.
  - intros H. exists c. split; auto. apply Ascii.eqb_refl.
Qed.

Lemma digit_ok c : is_digit c = true <-> digit c.
Proof.
  unfold digit. rewrite <- memb_In.
  assert (forall c, Bool.eqb (is_digit c) (memb c (lit "0123456789")) = true) as H
    by (apply all_ascii; vm_compute; reflexivity).
  specialize (H c). apply eqb_prop in H. now rewrite H.
Qed.
Lemma letter_ok c : is_alpha c = true <-> letter c.
Proof.
  unfold letter. rewrite <- memb_In.
  assert (forall c, Bool.eqb (is_alpha c) (memb c (lit "abcdefghijklmnopqrstuvwxyzABCDEFGHIJKLMNOPQRSTUVWXYZ_")) = true) as H
    by (apply all_ascii; vm_compute; reflexivity).
  specialize (H c). apply eqb_prop in H. now rewrite H.
Qed.
Lemma alphanum_ok c : is_alphanum c = true <-> letter c \/ digit c.
Proof. unfold is_alphanum. rewrite orb_true_iff, letter_ok, digit_ok. tauto. Qed.
Lemma wordchar_ok c : is_alphanum c || Ascii.eqb c ":" = true <-> letter c \/ digit c \/ c = ":"%char.
Proof. rewrite orb_true_iff, alphanum_ok, Ascii.eqb_eq. tauto. Qed.

Lemma excl (P Q : ascii -> bool) :
  forallb (fun c => negb (P c && Q c)) (map ascii_of_nat (seq 0 256)) = true ->
  forall c, P c = true -> Q c = false.
Proof.
  intros H c Hp. pose proof (all_ascii _ H c) as E. cbv beta in E. rewrite Hp in E. simpl in E.
  now destruct (Q c).
Qed.

Lemma letter_not_digit c : letter c -> ~ digit c.
Proof.
  rewrite <- letter_ok, <- digit_ok. intros H. rewrite (excl is_alpha is_digit) ; auto.
Qed.
Lemma space_ok c : Ascii.eqb c " " || Ascii.eqb c tab_char || Ascii.eqb c nl_char || Ascii.eqb c cr_char = true <-> space c.
Proof. unfold space. rewrite !orb_true_iff, !Ascii.eqb_eq. tauto. Qed.

Lemma text_eqb_eq a b : text_eqb a b = true <-> a = b.
Proof.
  revert b; induction a as [|x a IH]; intros [|y b]; simpl; try (split; congruence).
  rewrite andb_true_iff, Ascii.eqb_eq, IH. split; [intros [-> ->]; auto | intros [= -> ->]; auto].
Qed.

(** ** Reading at a suffix *)
Lemma rd_mid pre c r : rd (pre ++ c :: r) (length pre) = Ret c.
Proof. unfold rd. rewrite nth_error_app2 by lia. now rewrite Nat.sub_diag. Qed.
Lemma rd_mid1 pre c d r : rd (pre ++ c :: d :: r) (length pre + 1) = Ret d.
Proof. unfold rd. rewrite nth_error_app2 by lia. now replace (length pre + 1 - length pre) with 1 by lia. Qed.
Lemma lt_mid (pre : text) c r : (length pre <? length (pre ++ c :: r)) = true.
Proof. rewrite app_length. simpl. apply Nat.ltb_lt. lia. Qed.
Lemma lt_mid1 (pre : text) c d r : (length pre + 1 <? length (pre ++ c :: d :: r)) = true.
Proof. rewrite app_length. simpl. apply Nat.ltb_lt. lia. Qed.
Lemma lt_end (pre : text) : (length pre <? length (pre ++ [])) = false.
Proof. rewrite app_nil_r. apply Nat.ltb_ge. lia. Qed.
Lemma lt_end1 (pre : text) c : (length pre + 1 <? length (pre ++ [c])) = false.
Proof. rewrite app_length. simpl. apply Nat.ltb_ge. lia. Qed.
Lemma shift1 (pre : text) c (r : text) : pre ++ c :: r = (pre ++ [c]) ++ r.
Proof. now rewrite <- app_assoc. Qed.
Lemma len1 (pre : text) c : length pre + 1 = length (pre ++ [c]).
Proof. rewrite app_length. reflexivity. Qed.
Lemma sub_mid (pre t r : text) n : length t = n -> sub (pre ++ t ++ r) (length pre) n = t.
Proof.
  intros <-. unfold sub. rewrite skipn_app, skipn_all, Nat.sub_diag. simpl.
  rewrite firstn_app, firstn_all, Nat.sub_diag. simpl. apply app_nil_r.
Qed.

(** The longest prefix of characters that satisfy [ok]. *)
Fixpoint taken (ok : ascii -> bool) (r : text) : text :=
  match r with c :: r' => if ok c then c :: taken ok r' else [] | [] => [] end.
Fixpoint dropped (ok : ascii -> bool) (r : text) : text :=
  match r with c :: r' => if ok c then dropped ok r' else r | [] => [] end.
Lemma taken_dropped ok r : r = taken ok r ++ dropped ok r.
Proof. induction r as [|c r IH]; simpl; auto. destruct (ok c); simpl; congruence. Qed.
Lemma taken_ok ok r : Forall (fun c => ok c = true) (taken ok r).
Proof. induction r as [|c r IH]; simpl; auto. destruct (ok c) eqn:E; auto. Qed.
Definition no_head (P : ascii -> Prop) (r : text) : Prop := match r with [] => True | c :: _ => ~ P c end.
Lemma dropped_head ok r : no_head (fun c => ok c = true) (dropped ok r).
Proof. induction r as [|c r IH]; simpl; auto. destruct (ok c) eqn:E; simpl; auto. congruence. Qed.

Lemma while_char_ok ok fuel : forall pre r, length r < fuel ->
  while_char ok fuel (pre ++ r) (length pre) = Ret (length pre + length (taken ok r)).
Proof.
  induction fuel as [|fuel IH]; intros pre r Hf. lia.
  destruct r as [|c r]; cbn [while_char taken].
  - rewrite lt_end. simpl. f_equal. lia.
  - rewrite lt_mid, rd_mid. cbn [obind]. destruct (ok c) eqn:E.
    + rewrite shift1, (len1 pre c), IH by (simpl in Hf; lia).
      rewrite <- (len1 pre c). simpl. f_equal. lia.
    + simpl. f_equal. lia.
Qed.

Lemma skip_line_while fuel : forall s p, skip_line fuel s p = while_char (fun c => negb (Ascii.eqb c nl_char)) fuel s p.
Proof.
  induction fuel as [|fuel IH]; intros; simpl; auto.
  destruct (p <? length s); auto. destruct (rd s p); simpl; auto. destruct (Ascii.eqb a nl_char); simpl; auto.
Qed.

(** ** Gaps *)
Lemma not_starts_gap_nil : ~ starts_gap [].
Proof. intros [(c & r & E & _)|(r & E)]; discriminate. Qed.

Lemma nl_space : space nl_char. Proof. unfold space; auto. Qed.

Lemma skip_ws_ok fuel : forall pre r, length r < fuel ->
  exists w r', r = w ++ r' /\ skip_ws fuel (pre ++ r) (length pre) = Ret (length pre + length w) /\
    ~ starts_gap r' /\ (gap w \/ (last_gap w /\ r' = [])).
Proof.
  induction fuel as [|fuel IH]; intros pre r Hf. lia.
  destruct r as [|c r]; cbn [skip_ws].
  { exists [], []. rewrite lt_end. simpl. split; auto. split. f_equal; lia. split.
    apply not_starts_gap_nil. left. constructor. }
  rewrite lt_mid, rd_mid. cbn [obind].
  destruct (_ || _ || _ || _) eqn:Esp.
  { rewrite shift1, (len1 pre c). destruct (IH (pre ++ [c]) r) as (w & r' & -> & E & Hn & Hg). simpl in Hf; lia.
    exists (c :: w), r'. split; auto. split. rewrite E. rewrite <- len1. simpl. f_equal. lia.
    split; auto. apply space_ok in Esp. destruct Hg as [Hg|[Hg ->]].
    - left. now constructor.
    - right. split; auto. destruct Hg as [w Hg|w body Hg Hb].
      + constructor. now constructor.
      + change (c :: w ++ lit "//" ++ body) with ((c :: w) ++ lit "//" ++ body). apply last_comment; auto. now constructor. }
  assert (~ space c) as Hnsp. { rewrite <- space_ok, Esp. discriminate. }
  destruct r as [|d r].
  { rewrite lt_end1, andb_false_r. cbn [obind]. exists [], [c]. simpl. split; auto. split. f_equal; lia.
    split. 2: left; constructor. intros [(x & y & E & Hs)|(y & E)]; [injection E as <- <-; auto|discriminate]. }
  rewrite lt_mid1, andb_true_r. destruct (Ascii.eqb_spec c "/").
  2: { cbn [obind]. exists [], (c :: d :: r). split; auto. split. simpl. f_equal; lia.
       split. 2: left; constructor. intros [(x & y & E & Hs)|(y & E)]; [injection E as <- <-; auto|].
       simpl in E. congruence. }
  subst c. rewrite rd_mid1. cbn [obind]. destruct (Ascii.eqb_spec d "/").
  2: { exists [], ("/"%char :: d :: r). split; auto. split. simpl. f_equal; lia.
       split. 2: left; constructor. intros [(x & y & E & Hs)|(y & E)]; [injection E as <- <-; auto|].
       simpl in E. congruence. }
  subst d. rewrite skip_line_while.
  set (ok := fun c => negb (Ascii.eqb c nl_char)).
  replace (length pre + 2) with (length (pre ++ lit "//")) by (rewrite app_length; simpl; lia).
  replace (pre ++ "/"%char :: "/"%char :: r) with ((pre ++ lit "//") ++ r) by (rewrite <- app_assoc; reflexivity).
  rewrite while_char_ok. 2: { rewrite !app_length. lia. }
  cbn [obind]. pose proof (taken_dropped ok r) as Er. set (body := taken ok r) in *. set (tail := dropped ok r) in *.
  assert (~ In nl_char body) as Hb.
  { intros Hin. pose proof (taken_ok ok r) as Hall. rewrite Forall_forall in Hall. specialize (Hall _ Hin).
    unfold ok in Hall. now rewrite Ascii.eqb_refl in Hall. }
  pose proof (dropped_head ok r) as Hd. fold tail in Hd. clearbody body tail.
  replace (length (pre ++ lit "//") + length body) with (length (pre ++ lit "//" ++ body)) by (rewrite !app_length; lia).
  rewrite Er. replace ((pre ++ lit "//") ++ body ++ tail) with ((pre ++ lit "//" ++ body) ++ tail) by now rewrite <- !app_assoc.
  destruct (IH (pre ++ lit "//" ++ body) tail) as (w & r' & Et & E & Hn & Hg).
  { apply (f_equal (@length _)) in Er. rewrite app_length in Er. simpl in Hf. lia. }
  exists (lit "//" ++ body ++ w), r'. split. rewrite Et, <- !app_assoc. reflexivity.
  split. rewrite E. f_equal. rewrite !app_length. lia. split; auto.
  destruct Hg as [Hg|[Hg ->]].
  - destruct tail as [|x tail].
    + symmetry in Et. apply app_eq_nil in Et as [-> ->]. right. split; auto. rewrite app_nil_r.
      change (lit "//" ++ body) with ([] ++ lit "//" ++ body). apply last_comment; auto using gap_nil.
    + assert (x = nl_char) as ->.
      { simpl in Hd. unfold ok in Hd. destruct (Ascii.eqb_spec x nl_char); auto. destruct Hd. auto. }
      left. destruct w as [|y w].
      * simpl in Et. subst r'. destruct Hn. left. exists nl_char, tail. split; auto. apply nl_space.
      * injection Et as <- Et. inversion Hg as [|? ? ? Hw|bd ? ? Hw]; subst.
        now constructor.
  - right. split; auto. rewrite app_nil_r in Et. subst w. destruct tail as [|x tail].
    + rewrite app_nil_r.
      change (lit "//" ++ body) with ([] ++ lit "//" ++ body). apply last_comment; auto using gap_nil.
    + assert (x = nl_char) as ->.
      { simpl in Hd. unfold ok in Hd. destruct (Ascii.eqb_spec x nl_char); auto. destruct Hd. auto. }
      inversion Hg as [w Hg' E1|w bd Hg' Hbd E1]; subst.
      * inversion Hg' as [|? ? ? Hw|bd ? ? Hw]; subst. constructor. now constructor.
      * inversion Hg' as [E2|y w' Hy Hw E2|bd' w' Hbd' Hw E2]; subst.
        -- discriminate.
        -- injection E1 as -> <-.
           assert (last_gap ((lit "//" ++ body ++ nl_char :: w') ++ lit "//" ++ bd)) as Hlast
             by (apply last_comment; auto; now constructor).
           rewrite <- !app_assoc in Hlast. exact Hlast.
        -- discriminate.
Qed.

(** ** Lexemes *)
Lemma prefix_max (P : ascii -> Prop) a v b c :
  Forall P a -> a ++ v = b ++ c -> no_head P c -> length a <= length b.
Proof.
  revert b. induction a as [|x a IH]; intros b Ha E Hc. simpl; lia.
  inversion Ha; subst. destruct b as [|y b]; simpl in E.
  - destruct c; simpl in *; [discriminate|]. injection E as <- E. contradiction.
  - injection E as <- E. simpl. apply le_n_S. eapply IH; eauto.
Qed.
Lemma app_same_len (a b v w : text) : a ++ v = b ++ w -> length a = length b -> a = b /\ v = w.
Proof.
  revert b. induction a as [|x a IH]; intros [|y b] E H; simpl in *; try discriminate; auto.
  injection E as -> E. destruct (IH b E) as [-> ->]; auto.
Qed.
Lemma app_shorter (a b v w : text) : a ++ v = b ++ w -> length a < length b -> exists x r, v = x :: r /\ b = a ++ x :: skipn (S (length a)) b.
Proof.
  revert b. induction a as [|x a IH]; intros [|y b] E H; simpl in *; try lia.
  - destruct v; simpl in *; [discriminate|]. injection E as <- E. eauto.
  - injection E as <- E. destruct (IH b E) as (z & r & -> & Eb). lia. exists z, r. split; auto. congruence.
Qed.

Lemma digit_not_dot : ~ digit ".". Proof. rewrite <- digit_ok. vm_compute. discriminate. Qed.
Lemma digit_not_us : ~ digit "_". Proof. rewrite <- digit_ok. vm_compute. discriminate. Qed.

(** A numeral followed by something that does not continue it. *)
Definition has_dot_text (t : text) : Prop := In "."%char t.
Definition stops (n rest : text) : Prop :=
  no_head digit rest /\
  (has_dot_text n \/ match rest with "."%char :: d :: _ => ~ digit d | _ => True end).

Lemma numeral_chars n : numeral n -> Forall (fun c => digit c \/ c = "."%char) n.
Proof.
  intros [ds H1 H|ds fs H H1 H2].
  - eapply Forall_impl; [|exact H]; auto.
  - apply Forall_app. split. eapply Forall_impl; [|exact H]; auto. constructor; auto. eapply Forall_impl; [|exact H2]; auto.
Qed.
Lemma int_no_dot ds : Forall digit ds -> ~ has_dot_text ds.
Proof. intros H Hin. rewrite Forall_forall in H. now apply digit_not_dot, H. Qed.

Lemma frac_split ds fs v ds' rest :
  Forall digit ds -> Forall digit ds' -> no_head digit rest ->
  (ds ++ "."%char :: fs) ++ v = ds' ++ rest -> ds = ds' /\ rest = "."%char :: fs ++ v.
Proof.
  intros H1 H2 H3 E. rewrite <- app_assoc in E. simpl in E.
  assert (length ds <= length ds') by (eapply prefix_max; eauto).
  assert (length ds' <= length ds).
  { eapply prefix_max; [exact H2|symmetry; exact E|]. simpl. apply digit_not_dot. }
  apply app_same_len in E as [-> E]. auto. lia.
Qed.

Lemma numeral_max m n v rest : numeral m -> numeral n -> stops n rest -> m ++ v = n ++ rest -> length m <= length n.
Proof.
  intros Hm Hn [S1 S2] E. destruct Hn as [ds Hne Hds|ds fs Hds Hfs Hff].
  - destruct Hm as [ds' Hne' Hds'|ds' fs' Hds' Hfs' Hff'].
    + eapply prefix_max; eauto.
    + apply frac_split in E as [-> ->]; auto. destruct S2 as [S2|S2]. now apply int_no_dot in S2.
      destruct fs' as [|f fs']; [congruence|]. inversion Hff'; subst. simpl in S2. contradiction.
  - destruct Hm as [ds' Hne' Hds'|ds' fs' Hds' Hfs' Hff'].
    + rewrite <- app_assoc in E. simpl in E. rewrite app_length.
      assert (length ds' <= length ds); [|lia]. eapply prefix_max; eauto. simpl. apply digit_not_dot.
    + rewrite <- !app_assoc in E. simpl in E.
      assert (ds' = ds /\ "."%char :: fs' ++ v = "."%char :: fs ++ rest) as [-> E'].
      { apply app_same_len; auto.
        assert (length ds <= length ds') by (eapply prefix_max; [exact Hds|symmetry; exact E|simpl; apply digit_not_dot]).
        assert (length ds' <= length ds) by (eapply prefix_max; [exact Hds'|exact E|simpl; apply digit_not_dot]).
        lia. }
      injection E' as E'. rewrite !app_length. simpl.
      assert (length fs' <= length fs); [|lia]. eapply prefix_max; eauto.
Qed.

Lemma us_not_in n : numeral n -> ~ In "_"%char n.
Proof.
  intros H Hin. apply numeral_chars in H. rewrite Forall_forall in H. destruct (H _ Hin) as [H'|H'].
  now apply digit_not_us. discriminate.
Qed.
Lemma numeral_us m t v n rest : numeral m -> numeral n -> stops n rest ->
  (m ++ "_"%char :: t) ++ v = n ++ rest -> m = n /\ rest = "_"%char :: t ++ v.
Proof.
  intros Hm Hn Hs E. rewrite <- app_assoc in E. simpl in E.
  pose proof (numeral_max _ _ _ _ Hm Hn Hs E) as Hle.
  destruct (Nat.eq_dec (length m) (length n)) as [He|He].
  - apply app_same_len in E as [-> <-]; auto.
  - destruct (app_shorter _ _ _ _ E) as (x & r & Ex & Eb). lia. injection Ex as <- _.
    exfalso. apply (us_not_in n Hn). rewrite Eb. apply in_or_app. right. now left.
Qed.

(** The digits loop. *)
Lemma digits_ok fuel : forall pre r (hd : bool), length r < fuel ->
  exists n rest, r = n ++ rest /\ digits fuel (pre ++ r) (length pre) hd = Ret (length pre + length n) /\
    no_head digit rest /\
    ((Forall digit n /\ (hd = true \/ match rest with "."%char :: d :: _ => ~ digit d | _ => True end)) \/
     (hd = false /\ exists ds fs, n = ds ++ "."%char :: fs /\ Forall digit ds /\ fs <> [] /\ Forall digit fs)).
Proof.
  induction fuel as [|fuel IH]; intros pre r hd Hf. lia.
  destruct r as [|c r]; cbn [digits].
  { exists [], []. rewrite lt_end. simpl. split; auto. split. f_equal; lia. split; auto. }
  rewrite lt_mid, rd_mid. cbn [obind]. destruct (is_digit c) eqn:Ed.
  { rewrite shift1, (len1 pre c). destruct (IH (pre ++ [c]) r hd) as (n & rest & -> & E & Hh & Hn). simpl in Hf; lia.
    exists (c :: n), rest. split; auto. split. rewrite E, <- len1. simpl. f_equal; lia. split; auto.
    apply digit_ok in Ed. destruct Hn as [[Hn Hx]|(-> & ds & fs & -> & Hds & Hf0 & Hfs)].
    - left. auto.
    - right. split; auto. exists (c :: ds), fs. auto. }
  assert (~ digit c) as Hnd. { rewrite <- digit_ok. congruence. }
  destruct (Ascii.eqb_spec c ".").
  2: { simpl andb. cbn [obind]. exists [], (c :: r). split; auto. split. simpl; f_equal; lia. split; auto.
       left. split; auto. right. destruct c as [[][][][][][][][]]; auto. congruence. }
  subst c. destruct hd.
  { simpl andb. cbn [obind]. exists [], ("."%char :: r). split; auto. split. simpl; f_equal; lia. split; auto. }
  simpl negb. rewrite andb_true_l. destruct r as [|d r].
  { rewrite lt_end1. cbn [andb obind]. exists [], ["."%char]. split; auto. split. simpl; f_equal; lia. split; auto. }
  rewrite lt_mid1, rd_mid1. cbn [andb obind]. destruct (is_digit d) eqn:Edd.
  2: { exists [], ("."%char :: d :: r). split; auto. split. simpl; f_equal; lia. split; auto. left. split; auto.
       right. rewrite <- digit_ok. congruence. }
  rewrite (shift1 pre), (len1 pre "."%char). destruct (IH (pre ++ ["."%char]) (d :: r) true) as (n & rest & E0 & E & Hh & Hn).
  simpl in *; lia. rewrite E. exists ("."%char :: n), rest. split. simpl. now rewrite E0. split.
  rewrite <- len1. simpl. f_equal; lia. split; auto.
  destruct Hn as [[Hn _]|[Hx _]]; [|discriminate]. right. split; auto. exists [], n. split; auto. split; auto.
  split; auto. apply digit_ok in Edd. intros ->. simpl in E0. subst rest. simpl in Hh. contradiction.
Qed.

Lemma numeral_head n : numeral n -> exists c n', n = c :: n' /\ (digit c \/ (c = "."%char /\ exists d n'', n' = d :: n'' /\ digit d)).
Proof.
  intros [ds Hne H|ds fs H Hne Hf].
  - destruct ds; [congruence|]. inversion H; subst. eauto.
  - destruct ds; simpl.
    + destruct fs as [|f fs]; [congruence|]. inversion Hf; subst. exists "."%char, (f :: fs). split; auto. right. split; eauto.
    + inversion H; subst. eauto.
Qed.

Lemma number_head t : number t -> exists c n', t = c :: n' /\ (digit c \/ (c = "."%char /\ exists d n'', n' = d :: n'' /\ digit d)).
Proof.
  intros [n H|n u H Hu]; destruct (numeral_head n H) as (c & n' & -> & Hc); simpl; exists c; eexists; split; eauto.
  destruct Hc as [Hc|(-> & d & n'' & -> & Hd)]; auto. right. split; auto. simpl. eauto.
Qed.

(** What a text with a given first character can start with. *)
Lemma keyword_letter s k : In (s, k) keyword_table -> exists c t, lit s = c :: t /\ letter c /\
  Forall (fun x => letter x \/ digit x \/ x = ":"%char) t.
Proof.
  intros H. assert (forallb (fun p => match lit (fst p) with c :: t => is_alpha c && forallb (fun x => is_alphanum x || Ascii.eqb x ":") t | [] => false end) keyword_table = true) as F by (vm_compute; reflexivity).
  rewrite forallb_forall in F. specialize (F _ H). simpl in F. destruct (lit s) as [|c t]; [discriminate|].
  apply andb_true_iff in F as [F1 F2]. exists c, t. split; auto. split. now apply letter_ok.
  apply Forall_forall. intros x Hx. rewrite forallb_forall in F2. apply wordchar_ok. auto.
Qed.
Definition symbol_chars : text := lit "+-*/%^=!<>&|?:(){}[],;.".
Lemma symbol_head s k : In (s, k) symbol_table -> exists c t, lit s = c :: t /\ In c symbol_chars.
Proof.
  intros H. assert (forallb (fun p => match lit (fst p) with c :: t => memb c symbol_chars | [] => false end) symbol_table = true) as F by (vm_compute; reflexivity).
  rewrite forallb_forall in F. specialize (F _ H). cbn [fst] in F. destruct (lit s) as [|c t]; [discriminate|].
  apply memb_In in F. eauto.
Qed.

Lemma lexeme_cases k u : lexeme k u ->
  (exists c t, u = c :: t /\ letter c /\ Forall (fun x => letter x \/ digit x \/ x = ":"%char) t) \/
  (exists s, u = lit s /\ In (s, k) symbol_table) \/
  (number u /\ k = T_NUMBER) \/
  (exists t, u = quote_char :: t ++ [quote_char] /\ str_chars t /\ k = T_STRING).
Proof.
  intros [s k' H|s k' H|t H Hn|t H|t H].
  - left. destruct (keyword_letter _ _ H) as (c & t & -> & Hc & Ht). eauto.
  - right. left. eauto.
  - left. destruct H. eauto.
  - right. right. left. auto.
  - right. right. right. eauto.
Qed.

Ltac not_class := let H := fresh in intros H;
  match type of H with
  | letter _ => rewrite <- letter_ok in H
  | digit _ => rewrite <- digit_ok in H
  end; vm_compute in H; discriminate.

Lemma quote_not_letter : ~ letter quote_char. Proof. not_class. Qed.
Lemma quote_not_digit : ~ digit quote_char. Proof. not_class. Qed.
Lemma dot_not_letter : ~ letter ".". Proof. not_class. Qed.
Lemma sym_not_letter c : In c symbol_chars -> ~ letter c.
Proof.
  rewrite <- memb_In, <- letter_ok. intros H. rewrite (excl (fun c => memb c symbol_chars) is_alpha); auto.
Qed.
Lemma sym_not_digit c : In c symbol_chars -> ~ digit c.
Proof.
  rewrite <- memb_In, <- digit_ok. intros H. rewrite (excl (fun c => memb c symbol_chars) is_digit); auto.
Qed.
Lemma sym_not_quote c : In c symbol_chars -> c <> quote_char.
Proof. rewrite <- memb_In. intros H ->. vm_compute in H. discriminate. Qed.

(** Lexemes starting with a given character. *)
Lemma lexeme_letter k u c r v : lexeme k u -> letter c -> u ++ v = c :: r ->
  exists t, u = c :: t /\ Forall (fun x => letter x \/ digit x \/ x = ":"%char) t.
Proof.
  intros H Hc E. destruct (lexeme_cases _ _ H) as [(x & t & -> & Hx & Ht)|[(s & -> & Hs)|[[Hn _]|(t & -> & _)]]].
  - injection E as -> E. eauto.
  - destruct (symbol_head _ _ Hs) as (x & t & Ex & Hx). rewrite Ex in E. injection E as -> E. now apply sym_not_letter in Hx.
  - destruct (number_head _ Hn) as (x & t & -> & Hx). injection E as -> E. destruct Hx as [Hx|[-> _]].
    now apply letter_not_digit in Hx. now apply dot_not_letter in Hc.
  - injection E as <- E. now apply quote_not_letter in Hc.
Qed.
Lemma lexeme_digit k u c r v : lexeme k u -> digit c -> u ++ v = c :: r -> number u.
Proof.
  intros H Hc E. destruct (lexeme_cases _ _ H) as [(x & t & -> & Hx & Ht)|[(s & -> & Hs)|[[Hn _]|(t & -> & _)]]]; auto.
  - injection E as -> E. now apply letter_not_digit in Hx.
  - destruct (symbol_head _ _ Hs) as (x & t & Ex & Hx). rewrite Ex in E. injection E as -> E. now apply sym_not_digit in Hx.
  - injection E as <- E. now apply quote_not_digit in Hc.
Qed.
Lemma lexeme_quote k u r v : lexeme k u -> u ++ v = quote_char :: r -> exists t, u = quote_char :: t ++ [quote_char] /\ str_chars t.
Proof.
  intros H E. destruct (lexeme_cases _ _ H) as [(x & t & -> & Hx & Ht)|[(s & -> & Hs)|[[Hn _]|(t & -> & ? & _)]]]; eauto.
  - injection E as -> E. now apply quote_not_letter in Hx.
  - destruct (symbol_head _ _ Hs) as (x & t & Ex & Hx). rewrite Ex in E. injection E as -> E. now apply sym_not_quote in Hx.
  - destruct (number_head _ Hn) as (x & t & -> & Hx). injection E as -> E. destruct Hx as [Hx|[Hx _]].
    now apply quote_not_digit in Hx. discriminate.
Qed.
Lemma lexeme_other k u c r v : lexeme k u -> u ++ v = c :: r -> ~ letter c -> ~ digit c -> c <> quote_char ->
  (exists s, u = lit s /\ In (s, k) symbol_table) \/ (c = "."%char /\ exists d r', r = d :: r' /\ digit d /\ number u).
Proof.
  intros H E H1 H2 H3. destruct (lexeme_cases _ _ H) as [(x & t & -> & Hx & Ht)|[(s & -> & Hs)|[[Hn _]|(t & -> & ? & _)]]].
  - injection E as -> E. contradiction.
  - eauto.
  - right. destruct (number_head _ Hn) as (x & t & -> & Hx). injection E as -> E. destruct Hx as [Hx|[Hx Hd]]. contradiction.
    split; auto. destruct Hd as (d & n'' & -> & Hd). simpl in E. subst r. eauto.
  - injection E as <- E. congruence.
Qed.
Lemma lexeme_dot k u r v d r' : lexeme k u -> u ++ v = "."%char :: r -> r = d :: r' -> digit d ->
  u = ["."%char] \/ number u.
Proof.
  intros H E -> Hd. destruct (lexeme_other k u "." (d :: r') v H E) as [(s & -> & Hs)|(_ & d' & r'' & _ & _ & Hn)]; auto.
  apply dot_not_letter. apply digit_not_dot. discriminate.
  left. simpl in Hs. repeat (destruct Hs as [Hs|Hs]; [injection Hs as <- <-; try discriminate; auto|]). contradiction.
Qed.

(** ** Words *)
Lemma find_keyword t : find_text keywords t = None -> forall s k, In (s, k) keyword_table -> t <> lit s.
Proof.
  intros H s k Hin ->. simpl in Hin.
  repeat (destruct Hin as [Hin|Hin]; [injection Hin as <- <-; vm_compute in H; discriminate|]). contradiction.
Qed.
Lemma find_keyword_some t k : find_text keywords t = Some k -> exists s, t = lit s /\ In (s, k) keyword_table.
Proof.
  unfold keywords. cbn [find_text]. intros H.
  repeat match type of H with
  | (if text_eqb (lit ?s) t then Some ?v else _) = _ =>
      destruct (text_eqb (lit s) t) eqn:E; [apply text_eqb_eq in E; injection H as <-; exists s; split; [now symmetry|vm_compute; tauto]|clear E]
  end. discriminate.
Qed.

Lemma read_identifier_ok pre c r : letter c -> exists k t rest,
  c :: r = t ++ rest /\ t <> [] /\
  read_identifier (pre ++ c :: r) (length pre) = Ret (Token k t (length pre), length pre + length t) /\
  lexeme k t /\ longest t rest /\ k <> T_EOF.
Proof.
  intros Hc. unfold read_identifier. set (ok := fun c => is_alphanum c || Ascii.eqb c ":").
  rewrite (shift1 pre c r), (len1 pre c), while_char_ok. 2: { rewrite app_length. lia. }
  cbn [obind]. cbv zeta.
  set (t := c :: taken ok r). exists (match find_text keywords t with Some k => k | None => T_IDENTIFIER end), t, (dropped ok r).
  assert (sub ((pre ++ [c]) ++ r) (length pre) (length (pre ++ [c]) + length (taken ok r) - length pre) = t) as ->.
  { replace ((pre ++ [c]) ++ r) with (pre ++ t ++ dropped ok r).
    apply sub_mid. rewrite <- len1. simpl. lia. rewrite <- app_assoc. unfold t. simpl. now rewrite <- taken_dropped. }
  assert (c :: r = t ++ dropped ok r) as Er. { unfold t. simpl. f_equal. apply taken_dropped. }
  split; auto. split. discriminate. split.
  { destruct (find_text keywords t); f_equal; f_equal; rewrite <- len1; simpl; lia. }
  assert (Forall (fun x => letter x \/ digit x \/ x = ":"%char) (taken ok r)) as Ht.
  { eapply Forall_impl; [|apply (taken_ok ok r)]. intros a Ha. now apply wordchar_ok. }
  split.
  { destruct (find_text keywords t) eqn:Ef.
    - apply find_keyword_some in Ef as (s & -> & Hs). now constructor.
    - constructor. now constructor. now apply find_keyword. }
  split.
  { intros k u v Hu E. rewrite <- Er in E. destruct (lexeme_letter _ _ _ _ _ Hu Hc E) as (t' & -> & Ht').
    injection E as E. unfold t. simpl. apply le_n_S. rewrite (taken_dropped ok r) in E.
    eapply prefix_max; [exact Ht'|exact E|].
    pose proof (dropped_head ok r) as Hh. destruct (dropped ok r); simpl in *; auto. now rewrite <- wordchar_ok. }
  destruct (find_text keywords t) eqn:Ef; [|discriminate].
  apply find_keyword_some in Ef as (s & _ & Hs). simpl in Hs.
  repeat (destruct Hs as [Hs|Hs]; [injection Hs as <- <-; discriminate|]). contradiction.
Qed.

(** ** Numbers *)
Lemma read_number_ok pre c r :
  (digit c \/ (c = "."%char /\ exists d r', r = d :: r' /\ digit d)) -> exists t rest,
  c :: r = t ++ rest /\ t <> [] /\
  read_number (pre ++ c :: r) (length pre) = Ret (Token T_NUMBER t (length pre), length pre + length t) /\
  lexeme T_NUMBER t /\ longest t rest.
Proof.
  intros Hc. unfold read_number.
  destruct (digits_ok (S (length (pre ++ c :: r))) pre (c :: r) false) as (n & rest & Er & E & Hh & Hn).
  rewrite app_length. lia.
  rewrite E. cbn [obind].
  assert (numeral n /\ stops n rest) as [Hnum Hst].
  { destruct Hn as [[Hds Hx]|(_ & ds & fs & -> & H1 & H2 & H3)].
    - destruct Hx as [Hx|Hx]; [discriminate|]. split. 2: { split; auto. }
      constructor; auto. intros ->. simpl in Er. subst rest. simpl in Hh. destruct Hc as [Hc|(-> & d & r' & -> & Hd)].
      contradiction. simpl in Hx. contradiction.
    - split. now constructor. split; auto. left. apply in_or_app. right. now left. }
  assert (n <> []) as Hne. { destruct (numeral_head n Hnum) as (x & y & -> & _). discriminate. }
  assert (forall k u v, lexeme k u -> u ++ v = c :: r -> length u <= length n \/ number u) as Hlex.
  { intros k u v Hu Eu. destruct Hc as [Hc|(-> & d & r' & -> & Hd)].
    - right. eapply lexeme_digit; eauto.
    - destruct (lexeme_dot k u _ v d r' Hu Eu eq_refl Hd) as [->|Hnu]; auto. left. destruct n; [congruence|simpl; lia]. }
  destruct rest as [|x rest].
  { (* end of the source *)
    rewrite Er. replace (length pre + length n <? length (pre ++ n ++ [])) with false.
    2: { symmetry. apply Nat.ltb_ge. rewrite !app_length. simpl. lia. }
    cbn [obind]. exists n, []. split; auto. split; auto. split.
    { replace (length pre + length n - length pre) with (length n) by lia. now rewrite sub_mid. }
    split. constructor. now constructor.
    intros k u v Hu Eu. rewrite <- Er in Eu. destruct (Hlex k u v Hu Eu) as [|Hnu]; auto.
    rewrite Er in Eu. destruct Hnu as [m Hm|m t Hm Ht].
    - eapply numeral_max; eauto.
    - apply numeral_us in Eu as [_ Eu]; auto. discriminate. }
  rewrite Er. replace (length pre + length n <? length (pre ++ n ++ x :: rest)) with true.
  2: { symmetry. apply Nat.ltb_lt. rewrite !app_length. simpl. lia. }
  replace (length pre + length n) with (length (pre ++ n)) by (rewrite app_length; lia).
  replace (pre ++ n ++ x :: rest) with ((pre ++ n) ++ x :: rest) by now rewrite <- app_assoc.
  rewrite rd_mid. cbn [obind]. destruct (Ascii.eqb_spec x "_").
  - subst x. rewrite (shift1 (pre ++ n)), (len1 (pre ++ n) "_"%char), while_char_ok.
    2: { rewrite app_length. lia. }
    cbn [obind]. set (tt := taken is_alphanum rest).
    exists (n ++ "_"%char :: tt), (dropped is_alphanum rest). split.
    { rewrite <- app_assoc. simpl. do 2 f_equal. apply taken_dropped. }
    split. { intros H. apply app_eq_nil in H as [_ H]. discriminate. }
    split.
    { replace (((pre ++ n) ++ ["_"%char]) ++ rest) with (pre ++ (n ++ "_"%char :: tt) ++ dropped is_alphanum rest).
      2: { rewrite <- !app_assoc. simpl. do 3 f_equal. symmetry. apply taken_dropped. }
      f_equal. f_equal. f_equal. apply sub_mid. rewrite !app_length. simpl. lia. rewrite !app_length. simpl. lia. }
    assert (Forall (fun x => letter x \/ digit x) tt) as Htt.
    { eapply Forall_impl; [|apply taken_ok]. intros a Ha. now apply alphanum_ok. }
    split. { apply lex_number. now constructor. }
    intros k u v Hu Eu.
    assert (u ++ v = n ++ "_"%char :: rest) as Eu'.
    { rewrite Eu, <- app_assoc. simpl. do 2 f_equal. symmetry. apply taken_dropped. }
    rewrite app_length. simpl.
    destruct (Hlex k u v Hu) as [|Hnu]; try lia. now rewrite Er.
    destruct Hnu as [m Hm|m t Hm Ht].
    + pose proof (numeral_max _ _ _ _ Hm Hnum Hst Eu'). lia.
    + apply numeral_us in Eu' as [-> Eu']; auto. rewrite app_length. simpl. injection Eu' as Eu'.
      rewrite (taken_dropped is_alphanum rest) in Eu'. symmetry in Eu'.
      assert (length t <= length tt); [|lia]. eapply prefix_max; [exact Ht|exact Eu'|].
      pose proof (dropped_head is_alphanum rest) as Hd. destruct (dropped is_alphanum rest); simpl in *; auto.
      now rewrite <- alphanum_ok.
  - exists n, (x :: rest). split; auto. split; auto. split.
    { rewrite <- app_assoc. f_equal. f_equal. f_equal. apply sub_mid. rewrite app_length. lia.
      rewrite app_length. lia. }
    split. constructor. now constructor.
    intros k u v Hu Eu. destruct (Hlex k u v Hu) as [|Hnu]; auto. now rewrite Er.
    destruct Hnu as [m Hm|m t Hm Ht].
    + eapply numeral_max; eauto.
    + apply numeral_us in Eu as [_ Eu]; auto. congruence.
Qed.

(** ** Strings *)
Lemma str_unique a b v w : str_chars a -> str_chars b -> a ++ quote_char :: v = b ++ quote_char :: w -> a = b /\ v = w.
Proof.
  intros Ha. revert b. induction Ha as [|c t Hq Hb Ht IH|c t Ht IH]; intros b Hb' E.
  - destruct Hb' as [|c t Hq Hb Ht|c t Ht]; simpl in E; injection E; intros; subst; auto; try congruence.
  - destruct Hb' as [|c' t' Hq' Hb' Ht'|c' t' Ht']; simpl in E; injection E; intros; subst; try congruence.
    edestruct IH as [-> ->]; eauto.
  - destruct Hb' as [|c' t' Hq' Hb' Ht'|c' t' Ht']; simpl in E; injection E; intros; subst; try congruence.
    edestruct IH as [-> ->]; eauto.
Qed.

Lemma string_body_ok fuel : forall pre r, length r < fuel ->
  exists b rest, r = b ++ rest /\ string_body fuel (pre ++ r) (length pre) = Ret (length pre + length b) /\
    ((exists rest', rest = quote_char :: rest' /\ str_chars b) \/
     (rest = [] /\ forall a v, str_chars a -> r <> a ++ quote_char :: v)).
Proof.
  induction fuel as [|fuel IH]; intros pre r Hf. lia.
  destruct r as [|c r]; cbn [string_body].
  { rewrite lt_end. exists [], []. split; auto. split. simpl; f_equal; lia. right. split; auto.
    intros [|? ?] v _; discriminate. }
  rewrite lt_mid, rd_mid. cbn [obind]. destruct (Ascii.eqb_spec c quote_char) as [->|Hq].
  { exists [], (quote_char :: r). split; auto. split. simpl; f_equal; lia. left. exists r. split; auto. constructor. }
  cbv zeta. destruct (Ascii.eqb_spec c backslash_char) as [->|Hb].
  - destruct r as [|d r].
    + rewrite lt_end1. destruct fuel as [|fuel]. simpl in Hf; lia. cbn [string_body].
      rewrite lt_end1. exists [backslash_char], []. split; auto. split; auto. right. split; auto.
      intros a v Ha E. destruct Ha as [|? ? ? ? ?|? ? ?]; simpl in E; injection E; intros; subst; try congruence.
      all: try (destruct t; discriminate).
    + rewrite lt_mid1. replace (length pre + 1 + 1) with (length (pre ++ [backslash_char; d])) by (rewrite app_length; simpl; lia).
      replace (pre ++ backslash_char :: d :: r) with ((pre ++ [backslash_char; d]) ++ r) by (rewrite <- app_assoc; reflexivity).
      destruct (IH (pre ++ [backslash_char; d]) r) as (b & rest & Er & E & H). simpl in Hf; lia.
      rewrite E. exists (backslash_char :: d :: b), rest. split. simpl. now rewrite Er. split. rewrite app_length. simpl. f_equal; lia.
      destruct H as [(rest' & -> & Hsc)|[-> Hno]].
      * left. exists rest'. split; auto. now constructor.
      * right. split; auto. intros a v Ha Ea. destruct Ha as [|? ? ? ? ?|? ? ?]; simpl in Ea; injection Ea; intros; subst; try congruence.
        eapply Hno; eauto.
  - rewrite lt_mid. rewrite shift1, (len1 pre c). destruct (IH (pre ++ [c]) r) as (b & rest & Er & E & H). simpl in Hf; lia.
    rewrite E. exists (c :: b), rest. split. simpl. now rewrite Er. split. rewrite <- len1. simpl. f_equal; lia.
    destruct H as [(rest' & -> & Hsc)|[-> Hno]].
    + left. exists rest'. split; auto. now constructor.
    + right. split; auto. intros a v Ha Ea. destruct Ha as [|? ? ? ? ?|? ? ?]; simpl in Ea; injection Ea; intros; subst; try congruence.
      eapply Hno; eauto.
Qed.

Lemma read_string_ok pre r : exists k t rest,
  quote_char :: r = t ++ rest /\ t <> [] /\
  read_string (pre ++ quote_char :: r) (length pre) = Ret (Token k t (length pre), length pre + length t) /\
  ((k = T_STRING /\ lexeme k t /\ longest t rest) \/
   (k = T_ERROR /\ t = quote_char :: r /\ rest = [] /\ no_lexeme (quote_char :: r))).
Proof.
  unfold read_string. rewrite (shift1 pre), (len1 pre quote_char).
  destruct (string_body_ok (S (length ((pre ++ [quote_char]) ++ r))) (pre ++ [quote_char]) r) as (b & rest & Er & E & H).
  { rewrite app_length. lia. }
  rewrite E. cbn [obind]. destruct H as [(rest' & -> & Hsc)|[-> Hno]].
  - exists T_STRING, (quote_char :: b ++ [quote_char]), rest'. split. simpl. rewrite Er, <- app_assoc. reflexivity.
    split. discriminate. split.
    { rewrite Er.
      replace (_ <? _) with true. 2: { symmetry. apply Nat.ltb_lt. rewrite !app_length. simpl. lia. }
      replace ((pre ++ [quote_char]) ++ b ++ quote_char :: rest') with (pre ++ (quote_char :: b ++ [quote_char]) ++ rest')
        by (simpl; rewrite <- !app_assoc; reflexivity).
      f_equal. f_equal. f_equal. apply sub_mid. simpl. rewrite !app_length. simpl. lia.
      simpl. rewrite !app_length. simpl. lia. }
    left. split; auto. split. now constructor.
    intros k u v Hu Eu. assert (u ++ v = quote_char :: r) as Eu'.
    { rewrite Eu, Er. simpl. rewrite <- app_assoc. reflexivity. }
    destruct (lexeme_quote k u _ v Hu Eu') as (t & -> & Ht). simpl in Eu'. injection Eu' as Eu'. rewrite Er, <- app_assoc in Eu'.
    simpl in Eu'. apply str_unique in Eu' as [-> _]; auto.
  - rewrite app_nil_r in Er. subst b. exists T_ERROR, (quote_char :: r), []. split. now rewrite app_nil_r. split. discriminate.
    split.
    { replace (_ <? _) with false. 2: { symmetry. apply Nat.ltb_ge. rewrite !app_length. simpl. lia. }
      replace ((pre ++ [quote_char]) ++ r) with (pre ++ (quote_char :: r) ++ []) by (simpl; rewrite <- !app_assoc, app_nil_r; reflexivity).
      f_equal. f_equal. f_equal. apply sub_mid. simpl. rewrite !app_length. simpl. lia.
      simpl. rewrite !app_length. simpl. lia. }
    right. split; auto. split; auto. split; auto. intros k u v Hu Eu. symmetry in Eu.
    destruct (lexeme_quote k u _ v Hu Eu) as (t & -> & Ht). simpl in Eu. injection Eu as Eu. rewrite <- app_assoc in Eu.
    simpl in Eu. symmetry in Eu. exact (Hno t v Ht Eu).
Qed.

(** ** Symbols *)
Lemma sub1 pre c r : sub (pre ++ c :: r) (length pre) 1 = [c].
Proof. change (c :: r) with ([c] ++ r). now apply sub_mid. Qed.
Lemma sub2 pre c d r : sub (pre ++ c :: d :: r) (length pre) 2 = [c; d].
Proof. change (c :: d :: r) with ([c; d] ++ r). now apply sub_mid. Qed.

Definition sym_step (c : ascii) (r : text) : tkind * nat :=
  match two_char c with
  | Some (c2, k2, k1) => match r with d :: _ => if Ascii.eqb d c2 then (k2, 2) else (k1, 1) | [] => (k1, 1) end
  | None => (one_char c, 1)
  end.

Definition in_symbols (t : text) (k : tkind) : bool :=
  existsb (fun p => text_eqb (lit (fst p)) t && tkind_eqb (snd p) k) symbol_table.
Lemma in_symbols_ok t k : in_symbols t k = true -> exists s, t = lit s /\ In (s, k) symbol_table.
Proof.
  unfold in_symbols. rewrite existsb_exists. intros ((s, k') & Hin & E). simpl in E. apply andb_true_iff in E as [E1 E2].
  apply text_eqb_eq in E1. unfold tkind_eqb in E2. destruct (tkind_eq_dec k' k); [|discriminate]. subst. eauto.
Qed.
Definition opt_text (d : option ascii) : text := match d with Some d => [d] | None => [] end.
(** A finite check over the first two characters of the text. *)
Definition sym_check (c : ascii) (d : option ascii) : bool :=
  let (k, n) := sym_step c (opt_text d) in
  let t := firstn n (c :: opt_text d) in
  (length t =? n) && negb (tkind_eqb k T_EOF) &&
  (if tkind_eqb k T_ERROR
   then (n =? 1) && forallb (fun p => match lit (fst p) with
          | [x] => negb (Ascii.eqb x c)
          | x :: y :: _ => negb (Ascii.eqb x c && match d with Some d => Ascii.eqb y d | None => false end)
          | [] => false end) symbol_table
   else in_symbols t k &&
        forallb (fun p => match lit (fst p) with
          | [x] => true
          | [x; y] => negb (Ascii.eqb x c && match d with Some d => Ascii.eqb y d | None => false end) || (n =? 2)
          | _ => false end) symbol_table).
Lemma sym_check_all : forall c d, sym_check c d = true.
Proof.
  intros c d.
  assert (forallb (fun c => sym_check c None && forallb (fun d => sym_check c (Some d)) (map ascii_of_nat (seq 0 256)))
            (map ascii_of_nat (seq 0 256)) = true) as H by (vm_compute; reflexivity).
  pose proof (all_ascii _ H c) as Hc. cbv beta in Hc. apply andb_true_iff in Hc as [H1 H2].
  destruct d as [d|]; auto. now apply (all_ascii (fun d => sym_check c (Some d))).
Qed.

Lemma sym_step_opt c r : sym_step c r = sym_step c (opt_text (hd_error r)).
Proof. unfold sym_step. destruct r; reflexivity. Qed.

Lemma symbol_two (s : string) k : In (s, k) symbol_table -> length (lit s) <= 2.
Proof.
  intros H. simpl in H. repeat (destruct H as [H|H]; [injection H as <- <-; simpl; lia|]). contradiction.
Qed.

Lemma sym_step_ok c r : ~ letter c -> ~ digit c -> c <> quote_char ->
  (c = "."%char -> match r with d :: _ => ~ digit d | [] => True end) ->
  exists t rest, c :: r = t ++ rest /\ length t = snd (sym_step c r) /\ t <> [] /\ fst (sym_step c r) <> T_EOF /\
    ((fst (sym_step c r) = T_ERROR /\ t = [c] /\ rest = r /\ no_lexeme (c :: r)) \/
     (fst (sym_step c r) <> T_ERROR /\ lexeme (fst (sym_step c r)) t /\ longest t rest)).
Proof.
  intros H1 H2 H3 H4. pose proof (sym_check_all c (hd_error r)) as Hck. unfold sym_check in Hck.
  rewrite <- sym_step_opt in Hck. destruct (sym_step c r) as [k n] eqn:Es. cbn [fst snd].
  apply andb_true_iff in Hck as [Hck Hk]. apply andb_true_iff in Hck as [Hlen Heof]. apply Nat.eqb_eq in Hlen.
  assert (k <> T_EOF) as Hneof. { unfold tkind_eqb in Heof. destruct (tkind_eq_dec k T_EOF); [discriminate|auto]. }
  assert (n = 1 \/ n = 2) as Hn.
  { unfold sym_step in Es. destruct (two_char c) as [[[? ?] ?]|]; [destruct r; [|destruct (Ascii.eqb _ _)]|]; injection Es as <- <-; auto. }
  assert (forall k u v, lexeme k u -> u ++ v = c :: r -> exists s, u = lit s /\ In (s, k) symbol_table) as Hlex.
  { intros k' u v Hu Eu. destruct (lexeme_other _ _ _ _ _ Hu Eu H1 H2 H3) as [?|(-> & d & r' & -> & Hd & _)]; auto.
    exfalso. now apply H4. }
  unfold tkind_eqb in Hk. destruct (tkind_eq_dec k T_ERROR) as [->|Hne].
  - apply andb_true_iff in Hk as [Hn1 Hall]. apply Nat.eqb_eq in Hn1. subst n.
    exists [c], r. split; auto. split; auto. split. discriminate. split; auto. left. split; auto. split; auto. split; auto.
    intros k u v Hu Eu. symmetry in Eu. destruct (Hlex k u v Hu Eu) as (s & -> & Hs).
    rewrite forallb_forall in Hall. specialize (Hall _ Hs). cbn [fst] in Hall.
    destruct (lit s) as [|x [|y t]]; try discriminate; injection Eu as -> Eu.
    + now rewrite Ascii.eqb_refl in Hall.
    + subst r. simpl in Hall. now rewrite !Ascii.eqb_refl in Hall.
  - apply andb_true_iff in Hk as [Hin Hall].
    assert (firstn n (c :: opt_text (hd_error r)) = firstn n (c :: r)) as Ef.
    { destruct Hn as [-> | ->]; destruct r; reflexivity. }
    rewrite Ef in *. exists (firstn n (c :: r)), (skipn n (c :: r)). split. symmetry; apply firstn_skipn.
    split; auto. split. { destruct Hn as [-> | ->]; discriminate. }
    split; auto. right. split; auto.
    apply in_symbols_ok in Hin as (s & Et & Hs). rewrite Et. split. now constructor.
    intros k' u v Hu Eu. rewrite <- Et, firstn_skipn in Eu. destruct (Hlex k' u v Hu Eu) as (s' & -> & Hs').
    rewrite <- Et, Hlen.
    rewrite forallb_forall in Hall. specialize (Hall _ Hs'). cbn [fst] in Hall.
    destruct (lit s') as [|x [|y [|z t]]]; try discriminate.
    + destruct Hn as [-> | ->]; simpl; lia.
    + injection Eu as -> Eu. subst r. simpl hd_error in Hall. cbv iota in Hall. rewrite !Ascii.eqb_refl in Hall.
      simpl in Hall. apply Nat.eqb_eq in Hall. subst n. simpl. lia.
Qed.

(** ** One call of Next *)
Lemma lexeme_nonempty k t : lexeme k t -> t <> [].
Proof.
  intros H. destruct (lexeme_cases _ _ H) as [(c & u & -> & _)|[(s & -> & Hs)|[[Hn _]|(u & -> & _)]]]; try discriminate.
  - destruct (symbol_head _ _ Hs) as (c & u & -> & _). discriminate.
  - destruct (number_head _ Hn) as (c & u & -> & _). discriminate.
Qed.
Lemma lexeme_kind k t : lexeme k t -> k <> T_EOF /\ k <> T_ERROR.
Proof.
  intros [s k' H|s k' H|u H Hn|u H|u H]; try (split; discriminate);
  simpl in H; repeat (destruct H as [H|H]; [injection H as <- <-; split; discriminate|]); contradiction.
Qed.

(** What one scan does to the remaining text. *)
Lemma scan_step pre r : exists t w rest, r = w ++ rest /\
  scan_token (pre ++ r) (length pre) = Ret (t, length pre + length w) /\
  (tk t <> T_EOF -> w <> []) /\
  (tk t = T_EOF -> rest = [] /\ t = Token T_EOF [] (length (pre ++ r))) /\
  (forall ts, lexes (length pre + length w) rest ts -> lexes (length pre) r (if tis t T_EOF then [t] else t :: ts)).
Proof.
  unfold scan_token.
  destruct (skip_ws_ok (S (length (pre ++ r))) pre r) as (w & r' & Er & E & Hng & Hg). { rewrite app_length. lia. }
  rewrite E. cbn [obind]. destruct r' as [|c r'].
  { rewrite app_nil_r in Er. subst r. replace (length (pre ++ w) <=? length pre + length w) with true.
    2: { symmetry. apply Nat.leb_le. rewrite app_length. lia. }
    exists (Token T_EOF [] (length pre + length w)), w, []. split. now rewrite app_nil_r. split; auto.
    split. { simpl. congruence. } split. { intros _. split; auto. now rewrite app_length. }
    intros ts _. unfold tis. simpl. apply lexes_end. destruct Hg as [Hg|[Hg _]]; auto. now constructor. }
  assert (gap w) as Hgap. { destruct Hg as [Hg|[_ Hg]]; [auto|discriminate]. }
  subst r. replace (length (pre ++ w ++ c :: r') <=? length pre + length w) with false.
  2: { symmetry. apply Nat.leb_gt. rewrite !app_length. simpl. lia. }
  replace (length pre + length w) with (length (pre ++ w)) by now rewrite app_length.
  replace (pre ++ w ++ c :: r') with ((pre ++ w) ++ c :: r') by now rewrite app_assoc.
  rewrite rd_mid. cbn [obind].
  (* the three ways a token can come out *)
  assert (forall k t rest, c :: r' = t ++ rest -> lexeme k t -> longest t rest ->
     exists t0 w0 rest0, w ++ c :: r' = w0 ++ rest0 /\
       (Ret (Token k t (length (pre ++ w)), length (pre ++ w) + length t) = Ret (t0, length pre + length w0)) /\
       (tk t0 <> T_EOF -> w0 <> []) /\
       (tk t0 = T_EOF -> rest0 = [] /\ t0 = Token T_EOF [] (length ((pre ++ w) ++ c :: r'))) /\
       (forall ts, lexes (length pre + length w0) rest0 ts -> lexes (length pre) (w ++ c :: r') (if tis t0 T_EOF then [t0] else t0 :: ts))) as Htok.
  { intros k t rest Et Hl Hlong. exists (Token k t (length (pre ++ w))), (w ++ t), rest.
    split. now rewrite Et, app_assoc. split. { f_equal. f_equal. rewrite !app_length. lia. }
    split. { intros _ Hx. apply app_eq_nil in Hx as [_ Hx]. now apply lexeme_nonempty in Hl. }
    destruct (lexeme_kind _ _ Hl) as [Hk _]. split. { simpl. congruence. }
    intros ts Hts. unfold tis, tkind_eqb. cbn [tk]. destruct (tkind_eq_dec k T_EOF); [contradiction|].
    rewrite Et. rewrite app_length. apply lexes_token; auto. now rewrite <- Et.
    rewrite app_length, Nat.add_assoc in Hts. exact Hts. }
  destruct (is_digit c) eqn:Ed.
  { cbn [obind]. destruct (read_number_ok (pre ++ w) c r') as (t & rest & Et & Hne & Er & Hl & Hlong).
    left. now apply digit_ok. rewrite Er. now apply Htok with (rest := rest). }
  assert (~ digit c) as Hnd. { rewrite <- digit_ok. congruence. }
  assert ((if Ascii.eqb c "." && (length (pre ++ w) + 1 <? length ((pre ++ w) ++ c :: r'))
           then do! c1 <- rd ((pre ++ w) ++ c :: r') (length (pre ++ w) + 1); Ret (is_digit c1) else Ret false)
          = Ret (match r' with d :: _ => Ascii.eqb c "." && is_digit d | [] => false end)) as En.
  { destruct r' as [|d r']. now rewrite lt_end1, andb_false_r. rewrite lt_mid1, rd_mid1, andb_true_r. cbn [obind].
    now destruct (Ascii.eqb c "."). }
  rewrite En. cbn [obind]. clear En.
  destruct (match r' with d :: _ => Ascii.eqb c "." && is_digit d | [] => false end) eqn:En.
  { destruct r' as [|d r']; [discriminate|]. apply andb_true_iff in En as [Ec Edd]. apply Ascii.eqb_eq in Ec. subst c.
    destruct (read_number_ok (pre ++ w) "." (d :: r')) as (t & rest & Et & Hne & Er & Hl & Hlong).
    right. split; auto. exists d, r'. split; auto. now apply digit_ok. rewrite Er. now apply Htok with (rest := rest). }
  destruct (is_alpha c) eqn:Ea.
  { destruct (read_identifier_ok (pre ++ w) c r') as (k & t & rest & Et & Hne & Er & Hl & Hlong & _).
    now apply letter_ok. rewrite Er. now apply Htok with (rest := rest). }
  destruct (Ascii.eqb_spec c quote_char) as [->|Hq].
  { destruct (read_string_ok (pre ++ w) r') as (k & t & rest & Et & Hne & Er & [(-> & Hl & Hlong)|(-> & -> & -> & Hno)]).
    - rewrite Er. now apply Htok with (rest := rest).
    - rewrite Er. exists (Token T_ERROR (quote_char :: r') (length (pre ++ w))), (w ++ quote_char :: r'), [].
      split. now rewrite app_nil_r. split. { f_equal. f_equal. rewrite !app_length. lia. }
      split. { intros _ Hx. apply app_eq_nil in Hx as [_ Hx]. discriminate. }
      split. { simpl. discriminate. }
      intros ts Hts. unfold tis. simpl. rewrite app_length. apply lexes_unclosed; auto.
      rewrite app_length, Nat.add_assoc in Hts. exact Hts. }
  assert (~ letter c) as Hnl. { rewrite <- letter_ok. congruence. }
  destruct (sym_step_ok c r' Hnl Hnd Hq) as (t & rest & Et & Hlen & Hne & Hneof & Hcase).
  { intros ->. destruct r' as [|d r']; auto. simpl in En. rewrite <- digit_ok. congruence. }
  assert (forall k n, sym_step c r' = (k, n) ->
    match two_char c with
    | Some (c2, k2, k1) =>
        do! second <- (if length (pre ++ w) + 1 <? length ((pre ++ w) ++ c :: r')
                       then do! c1 <- rd ((pre ++ w) ++ c :: r') (length (pre ++ w) + 1); Ret (Ascii.eqb c1 c2)
                       else Ret false);
        if (second : bool) then Ret (Token k2 (sub ((pre ++ w) ++ c :: r') (length (pre ++ w)) 2) (length (pre ++ w)), length (pre ++ w) + 2)
        else Ret (Token k1 (sub ((pre ++ w) ++ c :: r') (length (pre ++ w)) 1) (length (pre ++ w)), length (pre ++ w) + 1)
    | None => Ret (Token (one_char c) (sub ((pre ++ w) ++ c :: r') (length (pre ++ w)) 1) (length (pre ++ w)), length (pre ++ w) + 1)
    end = Ret (Token k (sub ((pre ++ w) ++ c :: r') (length (pre ++ w)) n) (length (pre ++ w)), length (pre ++ w) + n)) as Hsym.
  { intros k n Ek. unfold sym_step in Ek. destruct (two_char c) as [[[c2 k2] k1]|].
    - destruct r' as [|d r'].
      + rewrite lt_end1. cbn [obind]. injection Ek as <- <-. reflexivity.
      + rewrite lt_mid1, rd_mid1. cbn [obind]. destruct (Ascii.eqb d c2); injection Ek as <- <-; reflexivity.
    - injection Ek as <- <-. reflexivity. }
  destruct (sym_step c r') as [k n] eqn:Ek. rewrite (Hsym k n eq_refl). cbn [fst snd] in *.
  assert (sub ((pre ++ w) ++ c :: r') (length (pre ++ w)) n = t) as ->. { rewrite Et. now apply sub_mid. }
  destruct Hcase as [(-> & -> & -> & Hno)|(Hk & Hl & Hlong)].
  - simpl in Hlen. subst n.
    exists (Token T_ERROR [c] (length (pre ++ w))), (w ++ [c]), r'.
    split. now rewrite <- app_assoc. split. { f_equal. f_equal. rewrite !app_length. simpl. lia. }
    split. { intros _ Hx. apply app_eq_nil in Hx as [_ Hx]. discriminate. }
    split. { simpl. discriminate. }
    intros ts Hts. unfold tis. simpl. rewrite app_length. apply lexes_bad; auto.
    rewrite app_length, Nat.add_assoc in Hts. exact Hts.
  - rewrite <- Hlen. now apply Htok with (rest := rest).
Qed.

(** ** The whole text *)
Lemma lex_all_from_ok fuel : forall pre r, length r + 1 < fuel ->
  exists ts, lex_all_from fuel (Lexer (pre ++ r) (length pre) None) = Ret ts /\ lexes (length pre) r ts.
Proof.
  induction fuel as [|fuel IH]; intros pre r Hf. lia.
  cbn [lex_all_from]. unfold lex_next. cbn [l_peeked l_src l_pos].
  destruct (scan_step pre r) as (t & w & rest & -> & E & Hne & Heof & Hlex). rewrite E. cbn [obind].
  unfold tis, tkind_eqb in *. destruct (tkind_eq_dec (tk t) T_EOF) as [He|He].
  - exists [t]. split; auto. apply (Hlex [Token T_EOF [] (length pre + length w)]). destruct (Heof He) as [-> _].
    replace (length pre + length w) with (length pre + length w + length (@nil ascii)) at 2 by (simpl; lia).
    apply lexes_end. constructor. constructor.
  - specialize (Hne He). destruct (IH (pre ++ w) rest) as (ts & Ets & Hts).
    { rewrite app_length in Hf. destruct w; [congruence|simpl in Hf; lia]. }
    rewrite app_assoc, <- app_length, Ets. cbn [obind]. exists (t :: ts). split; auto. apply Hlex. now rewrite <- app_length.
Qed.

Lemma lex_all_ok s : exists ts, lex_all s = Ret ts /\ lexes 0 s ts.
Proof.
  unfold lex_all, new_lexer. apply (lex_all_from_ok (length s + 2) [] s). lia.
Qed.

(** ** The specification determines the tokens *)
Lemma gap_unique w1 : gap w1 -> forall w2 x1 x2, gap w2 -> ~ starts_gap x1 -> ~ starts_gap x2 -> w1 ++ x1 = w2 ++ x2 -> w1 = w2 /\ x1 = x2.
Proof.
  induction 1 as [|c w Hc Hw IH|body w Hb Hw IH]; intros w2 x1 x2 H2 Hx1 Hx2 E.
  - destruct H2 as [|c w' Hc Hw'|body w' Hb Hw']; auto; exfalso; apply Hx1; simpl in E; subst x1.
    + left. eauto.
    + right. rewrite <- app_assoc. eexists. reflexivity.
  - destruct H2 as [|c' w' Hc' Hw'|body w' Hb Hw'].
    + exfalso; apply Hx2. simpl in E. subst x2. left. eauto.
    + injection E as -> E. destruct (IH _ _ _ Hw' Hx1 Hx2 E) as [-> ->]. auto.
    + injection E as -> E. exfalso. unfold space in Hc. destruct Hc as [Hc|[Hc|[Hc|Hc]]]; discriminate.
  - destruct H2 as [|c' w' Hc' Hw'|body' w' Hb' Hw'].
    + exfalso; apply Hx2. simpl in E. subst x2. right. rewrite <- app_assoc. eexists. reflexivity.
    + injection E as <- E. exfalso. unfold space in Hc'. destruct Hc' as [Hc'|[Hc'|[Hc'|Hc']]]; discriminate.
    + injection E as E. rewrite <- !app_assoc in E. simpl in E.
      assert (body = body' /\ w ++ x1 = w' ++ x2) as [-> E'].
      { set (P := fun c => c <> nl_char).
        assert (Forall P body) as F1. { apply Forall_forall. intros x Hx ->. contradiction. }
        assert (Forall P body') as F2. { apply Forall_forall. intros x Hx ->. contradiction. }
        assert (length body <= length body') by (eapply prefix_max; [exact F1|exact E|simpl; unfold P; auto]).
        assert (length body' <= length body) by (eapply prefix_max; [exact F2|symmetry; exact E|simpl; unfold P; auto]).
        apply app_same_len in E as [-> E]; [|lia]. injection E as E. auto. }
      destruct (IH _ _ _ Hw' Hx1 Hx2 E') as [-> ->]. auto.
Qed.

Lemma last_gap_no w1 w2 x : last_gap w1 -> gap w2 -> ~ starts_gap x -> x <> [] -> w1 <> w2 ++ x.
Proof.
  intros [w Hw|w body Hw Hb] H2 Hx Hne E.
  - rewrite <- (app_nil_r w) in E. destruct (gap_unique _ Hw _ _ _ H2 not_starts_gap_nil Hx E) as [_ <-]. congruence.
  - revert w Hw E. induction H2 as [|c w2 Hc Hw2 IH|bd w2 Hbd Hw2 IH]; intros w Hw E.
    + simpl in E. apply Hx. destruct Hw as [|c w Hc Hw|bd w Hbd Hw]; simpl in E; subst x.
      * right. eexists. reflexivity.
      * left. eauto.
      * right. rewrite <- app_assoc. eexists. reflexivity.
    + destruct Hw as [|c' w Hc' Hw|bd w Hbd Hw].
      * injection E as <- E. unfold space in Hc. destruct Hc as [Hc|[Hc|[Hc|Hc]]]; discriminate.
      * injection E as -> E. eapply IH; eauto.
      * injection E as <- E. unfold space in Hc. destruct Hc as [Hc|[Hc|[Hc|Hc]]]; discriminate.
    + destruct Hw as [|c' w Hc' Hw|bd' w Hbd' Hw].
      * injection E as E. apply Hb. rewrite E. rewrite <- app_assoc. apply in_or_app. right. now left.
      * injection E as -> E. unfold space in Hc'. destruct Hc' as [Hc'|[Hc'|[Hc'|Hc']]]; discriminate.
      * simpl in E. injection E as E. rewrite <- !app_assoc in E. simpl in E.
        set (P := fun c => c <> nl_char).
        assert (Forall P bd) as F1. { apply Forall_forall. intros y Hy ->. contradiction. }
        assert (Forall P bd') as F2. { apply Forall_forall. intros y Hy ->. contradiction. }
        assert (length bd <= length bd') by (eapply prefix_max; [exact F1|symmetry; exact E|simpl; unfold P; auto]).
        assert (length bd' <= length bd) by (eapply prefix_max; [exact F2|exact E|simpl; unfold P; auto]).
        apply app_same_len in E as [-> E]; [|lia]. injection E as E. eapply IH; eauto.
Qed.

Lemma kw_unique s k s' k' : In (s, k) keyword_table -> In (s', k') keyword_table -> lit s = lit s' -> k = k'.
Proof.
  intros H H' E. simpl in H, H'.
  repeat (destruct H as [H|H]; [injection H as <- <-;
    repeat (destruct H' as [H'|H']; [injection H' as <- <-; try discriminate E; try reflexivity|]); contradiction|]). contradiction.
Qed.
Lemma sym_unique s k s' k' : In (s, k) symbol_table -> In (s', k') symbol_table -> lit s = lit s' -> k = k'.
Proof.
  intros H H' E.
  assert (forallb (fun p => forallb (fun q => negb (text_eqb (lit (fst p)) (lit (fst q))) || tkind_eqb (snd p) (snd q)) symbol_table) symbol_table = true) as F
    by (vm_compute; reflexivity).
  rewrite forallb_forall in F. specialize (F _ H). rewrite forallb_forall in F. specialize (F _ H'). cbn [fst snd] in F.
  rewrite E in F. assert (text_eqb (lit s') (lit s') = true) as T by now apply text_eqb_eq. rewrite T in F. simpl in F.
  unfold tkind_eqb in F. now destruct (tkind_eq_dec k k').
Qed.

Lemma number_not_symbol s k : In (s, k) symbol_table -> ~ number (lit s).
Proof.
  intros H Hn. pose proof (symbol_two _ _ H) as H2. destruct (number_head _ Hn) as (c & n & E & Hc).
  destruct (symbol_head _ _ H) as (c' & n' & E' & Hc'). rewrite E in E'. injection E' as <- <-.
  destruct Hc as [Hc|(-> & d & n'' & -> & Hd)]. now apply sym_not_digit in Hc.
  simpl in H. repeat (destruct H as [H|H]; [injection H as <- <-; try discriminate E; try (injection E as <- <-; now apply sym_not_digit in Hd)|]). contradiction.
Qed.

Lemma lexeme_unique k k' t : lexeme k t -> lexeme k' t -> k = k'.
Proof.
  assert (forall s k, In (s, k) keyword_table -> exists c u, lit s = c :: u /\ letter c) as Kl.
  { intros s k0 H. destruct (keyword_letter _ _ H) as (c & u & E & Hc & _). eauto. }
  assert (forall t, number t -> exists c u, t = c :: u /\ ~ letter c /\ c <> quote_char) as Nl.
  { intros u H. destruct (number_head _ H) as (c & v & -> & Hc). exists c, v. split; auto.
    destruct Hc as [Hc|[-> _]]. split. now intros ?%letter_not_digit. intros ->. now apply quote_not_digit in Hc.
    split. apply dot_not_letter. discriminate. }
  intros H H'. inversion H as [s k0 Hs|s k0 Hs|u Hw Hnk|u Hn|u Hu]; subst; inversion H' as [s' k0' Hs'|s' k0' Hs'|u' Hw' Hnk'|u' Hn'|u' Hu']; subst; auto.
  - eapply kw_unique; eauto.
  - destruct (Kl _ _ Hs) as (c & v & E & Hc). destruct (symbol_head _ _ Hs') as (c' & v' & E' & Hc'). exfalso.
    assert (c = c') by congruence. subst. now apply sym_not_letter in Hc'.
  - exfalso. eapply Hnk'; eauto.
  - destruct (Kl _ _ Hs) as (c & v & E & Hc). destruct (Nl _ Hn') as (c' & v' & E' & Hc' & _). exfalso. assert (c = c') by congruence. subst. auto.
  - destruct (Kl _ _ Hs) as (c & v & E & Hc). exfalso. assert (c = quote_char) by congruence. subst. now apply quote_not_letter in Hc.
  - destruct (Kl _ _ Hs') as (c & v & E & Hc). destruct (symbol_head _ _ Hs) as (c' & v' & E' & Hc'). exfalso.
    assert (c = c') by congruence. subst. now apply sym_not_letter in Hc'.
  - eapply sym_unique; eauto.
  - destruct (symbol_head _ _ Hs) as (c' & v' & E' & Hc'). rewrite E' in Hw'. inversion Hw'; subst. exfalso. now apply sym_not_letter in Hc'.
  - exfalso. eapply number_not_symbol; eauto.
  - destruct (symbol_head _ _ Hs) as (c' & v' & E' & Hc'). exfalso. assert (c' = quote_char) by congruence. subst. now apply sym_not_quote in Hc'.
  - exfalso. eapply Hnk; eauto.
  - destruct (symbol_head _ _ Hs') as (c' & v' & E' & Hc'). rewrite E' in Hw. inversion Hw; subst. exfalso. now apply sym_not_letter in Hc'.
  - destruct (Nl _ Hn') as (c' & v' & -> & Hc' & _). inversion Hw; subst. contradiction.
  - inversion Hw as [c0 t0 Hc0 Ht0 E0]. exfalso. subst. now apply quote_not_letter in Hc0.
  - destruct (Kl _ _ Hs') as (c & v & E & Hc). destruct (Nl _ Hn) as (c' & v' & E' & Hc' & _). exfalso. assert (c = c') by congruence. subst. auto.
  - exfalso. eapply number_not_symbol; eauto.
  - destruct (Nl _ Hn) as (c' & v' & -> & Hc' & _). inversion Hw'; subst. contradiction.
  - destruct (Nl _ Hn) as (c' & v' & E & _ & Hc'). injection E as <- _. congruence.
  - destruct (Kl _ _ Hs') as (c & v & E & Hc). exfalso. assert (c = quote_char) by congruence. subst. now apply quote_not_letter in Hc.
  - destruct (symbol_head _ _ Hs') as (c' & v' & E' & Hc'). exfalso. assert (c' = quote_char) by congruence. subst. now apply sym_not_quote in Hc'.
  - inversion Hw' as [c0 t0 Hc0 Ht0 E0]. exfalso. subst. now apply quote_not_letter in Hc0.
  - destruct (Nl _ Hn') as (c' & v' & E & _ & Hc'). injection E as <- _. congruence.
Qed.

Lemma quote_not_gap r : ~ starts_gap (quote_char :: r).
Proof.
  intros [(c & r' & E & Hsp)|(r' & E)].
  - injection E as <- <-. unfold space in Hsp. destruct Hsp as [Hc|[Hc|[Hc|Hc]]]; vm_compute in Hc; discriminate Hc.
  - apply (f_equal (hd_error (A := ascii))) in E. vm_compute in E. discriminate E.
Qed.

Lemma lexes_unique p s ts : lexes p s ts -> forall ts', lexes p s ts' -> ts = ts'.
Proof.
  induction 1 as [p w Hw|p w k t rest ts Hg Hl Hs Hlong Hts IH|p w c rest ts Hg Hno Hs Hq Hts IH|p w rest ts Hg Hno Hts IH]; intros ts' H'.
  - inversion H' as [p' w' Hw' E1 E2|p' w' k' t' rest' ts'' Hg' Hl' Hs' Hlong' Hts' E1 E2|p' w' c' rest' ts'' Hg' Hno' Hs' Hq' Hts' E1 E2|p' w' rest' ts'' Hg' Hno' Hts' E1 E2]; subst; auto; exfalso.
    + eapply last_gap_no; [exact Hw|exact Hg'|exact Hs'| |reflexivity]. apply lexeme_nonempty in Hl'. destruct t'; [congruence|discriminate].
    + eapply last_gap_no; [exact Hw|exact Hg'|exact Hs'|discriminate|reflexivity].
    + eapply last_gap_no; [exact Hw|exact Hg'|apply (quote_not_gap rest')|discriminate|reflexivity].
  - assert (forall x, x = w ++ t ++ rest -> lexes p x ts' -> Token k t (p + length w) :: ts = ts') as G; [|eauto].
    intros x Ex Hx. destruct Hx as [p' w' Hw'|p' w' k' t' rest' ts'' Hg' Hl' Hs' Hlong' Hts'|p' w' c' rest' ts'' Hg' Hno' Hs' Hq' Hts'|p' w' rest' ts'' Hg' Hno' Hts'].
    + exfalso. eapply last_gap_no; [exact Hw'|exact Hg|exact Hs| |exact Ex]. apply lexeme_nonempty in Hl. destruct t; [congruence|discriminate].
    + destruct (gap_unique _ Hg' _ _ _ Hg Hs' Hs Ex) as [-> E].
      assert (length t <= length t') by (eapply Hlong'; [exact Hl|symmetry; exact E]).
      assert (length t' <= length t) by (eapply Hlong; [exact Hl'|exact E]).
      apply app_same_len in E as [-> ->]; [|lia]. rewrite (lexeme_unique _ _ _ Hl Hl'). f_equal. now apply IH.
    + destruct (gap_unique _ Hg' _ _ _ Hg Hs' Hs Ex) as [-> E]. exfalso. now apply (Hno' k t rest).
    + assert (~ starts_gap (quote_char :: rest')) as Hs'.
      { apply quote_not_gap. }
      destruct (gap_unique _ Hg' _ _ _ Hg Hs' Hs Ex) as [-> E]. exfalso. now apply (Hno' k t rest).
  - assert (forall x, x = w ++ c :: rest -> lexes p x ts' -> Token T_ERROR [c] (p + length w) :: ts = ts') as G; [|eauto].
    intros x Ex Hx. destruct Hx as [p' w' Hw'|p' w' k' t' rest' ts'' Hg' Hl' Hs' Hlong' Hts'|p' w' c' rest' ts'' Hg' Hno' Hs' Hq' Hts'|p' w' rest' ts'' Hg' Hno' Hts'].
    + exfalso. eapply last_gap_no; [exact Hw'|exact Hg|exact Hs|discriminate|exact Ex].
    + destruct (gap_unique _ Hg' _ _ _ Hg Hs' Hs Ex) as [-> E]. exfalso. now apply (Hno k' t' rest').
    + destruct (gap_unique _ Hg' _ _ _ Hg Hs' Hs Ex) as [-> E]. injection E as -> ->. f_equal. now apply IH.
    + assert (~ starts_gap (quote_char :: rest')) as Hs'.
      { apply quote_not_gap. }
      destruct (gap_unique _ Hg' _ _ _ Hg Hs' Hs Ex) as [-> E]. injection E as <- E. congruence.
  - assert (~ starts_gap (quote_char :: rest)) as Hs.
    { apply quote_not_gap. }
    assert (forall x, x = w ++ quote_char :: rest -> lexes p x ts' -> Token T_ERROR (quote_char :: rest) (p + length w) :: ts = ts') as G; [|eauto].
    intros x Ex Hx. destruct Hx as [p' w' Hw'|p' w' k' t' rest' ts'' Hg' Hl' Hs' Hlong' Hts'|p' w' c' rest' ts'' Hg' Hno' Hs' Hq' Hts'|p' w' rest' ts'' Hg' Hno' Hts'].
    + exfalso. eapply last_gap_no; [exact Hw'|exact Hg|exact Hs|discriminate|exact Ex].
    + destruct (gap_unique _ Hg' _ _ _ Hg Hs' Hs Ex) as [-> E]. exfalso. now apply (Hno k' t' rest').
    + destruct (gap_unique _ Hg' _ _ _ Hg Hs' Hs Ex) as [-> E]. injection E as -> ->. congruence.
    + assert (~ starts_gap (quote_char :: rest')) as Hs'.
      { apply quote_not_gap. }
      destruct (gap_unique _ Hg' _ _ _ Hg Hs' Hs Ex) as [-> E]. injection E as ->. f_equal. now apply IH.
Qed.

(** ** Consequences of the specification *)
Lemma lexes_slices p s ts : lexes p s ts ->
  Forall (fun t => p <= tp t /\ tp t + length (tx t) <= p + length s /\ tx t = firstn (length (tx t)) (skipn (tp t - p) s)) ts.
Proof.
  assert (forall p (w t rest : text) q ts, length w + length t = q ->
    Forall (fun t0 => p + q <= tp t0 /\ tp t0 + length (tx t0) <= p + q + length rest /\ tx t0 = firstn (length (tx t0)) (skipn (tp t0 - (p + q)) rest)) ts ->
    Forall (fun t0 => p <= tp t0 /\ tp t0 + length (tx t0) <= p + length (w ++ t ++ rest) /\ tx t0 = firstn (length (tx t0)) (skipn (tp t0 - p) (w ++ t ++ rest))) ts) as Hsh.
  { intros p' w t rest q ts0 <-. apply Forall_impl. intros a (Ha1 & Ha2 & Ha3). split. lia. split. rewrite !app_length. lia.
    assert (skipn (tp a - p') (w ++ t ++ rest) = skipn (tp a - (p' + (length w + length t))) rest) as ->; [|exact Ha3].
    rewrite app_assoc, skipn_app. rewrite (skipn_all2 (w ++ t)) by (rewrite app_length; lia). cbn [app].
    f_equal. rewrite app_length. lia. }
  assert (forall p (w t rest : text), tx (Token T_EOF t (p + length w)) = firstn (length t) (skipn (p + length w - p) (w ++ t ++ rest))) as Hhd.
  { intros p' w t rest. simpl. replace (p' + length w - p') with (length w) by lia.
    symmetry. apply (sub_mid w t rest). reflexivity. }
  induction 1 as [p w Hw|p w k t rest ts Hg Hl Hs Hlong Hts IH|p w c rest ts Hg Hno Hs Hq Hts IH|p w rest ts Hg Hno Hts IH].
  - constructor; auto. simpl. split. lia. split. lia. reflexivity.
  - constructor. 2: { apply (Hsh p w t rest (length w + length t)); auto. now rewrite Nat.add_assoc. }
    cbn [tp tx]. split. lia. split. rewrite !app_length; lia. apply (Hhd p w t rest).
  - change (c :: rest) with ([c] ++ rest). constructor. 2: { apply (Hsh p w [c] rest (length w + 1)); auto. now rewrite Nat.add_assoc. }
    cbn [tp tx]. split. lia. split. rewrite !app_length; simpl; lia. apply (Hhd p w [c] rest).
  - replace (quote_char :: rest) with ((quote_char :: rest) ++ []) by apply app_nil_r.
    constructor. 2: { apply (Hsh p w (quote_char :: rest) [] (length w + S (length rest))); auto. now rewrite Nat.add_assoc. }
    rewrite !app_nil_r. cbn [tp tx]. split. lia. split. rewrite !app_length; simpl; lia.
    pose proof (Hhd p w (quote_char :: rest) []) as Hh. rewrite app_nil_r in Hh. exact Hh.
Qed.

Lemma lexes_count p s ts : lexes p s ts -> length ts <= length s + 1.
Proof.
  induction 1 as [p w Hw|p w k t rest ts Hg Hl Hs Hlong Hts IH|p w c rest ts Hg Hno Hs Hq Hts IH|p w rest ts Hg Hno Hts IH];
    simpl; rewrite ?app_length; simpl in *; try lia.
  apply lexeme_nonempty in Hl. destruct t; [congruence|]. simpl. lia.
Qed.

Lemma lexes_ends p s ts : lexes p s ts -> exists ts', ts = ts' ++ [Token T_EOF [] (p + length s)] /\ Forall (fun t => tk t <> T_EOF) ts'.
Proof.
  induction 1 as [p w Hw|p w k t rest ts Hg Hl Hs Hlong Hts IH|p w c rest ts Hg Hno Hs Hq Hts IH|p w rest ts Hg Hno Hts IH].
  - exists []. auto.
  - destruct IH as (ts' & -> & Hf). exists (Token k t (p + length w) :: ts'). split.
    rewrite !app_length, !Nat.add_assoc. reflexivity. constructor; auto. now apply lexeme_kind in Hl.
  - destruct IH as (ts' & -> & Hf). exists (Token T_ERROR [c] (p + length w) :: ts'). split.
    replace (p + length w + 1 + length rest) with (p + length (w ++ c :: rest)) by (rewrite app_length; simpl; lia). reflexivity. constructor; auto. discriminate.
  - destruct IH as (ts' & -> & Hf). exists (Token T_ERROR (quote_char :: rest) (p + length w) :: ts'). split.
    replace (p + length w + S (length rest) + length (@nil ascii)) with (p + length (w ++ quote_char :: rest)) by (rewrite app_length; simpl; lia). reflexivity. constructor; auto. discriminate.
Qed.

Lemma lexes_rebuild p s ts : lexes p s ts -> exists gs g, length gs + 1 = length ts /\ Forall gap gs /\ last_gap g /\ s = rebuild (gs ++ [g]) ts.
Proof.
  induction 1 as [p w Hw|p w k t rest ts Hg Hl Hs Hlong Hts IH|p w c rest ts Hg Hno Hs Hq Hts IH|p w rest ts Hg Hno Hts IH].
  - exists [], w. split; auto. split; auto. split; auto. simpl. now rewrite app_nil_r.
  - destruct IH as (gs & g & H1 & H2 & H3 & E). exists (w :: gs), g. split. simpl. lia. split; auto. split; auto. simpl. now rewrite <- E.
  - destruct IH as (gs & g & H1 & H2 & H3 & E). exists (w :: gs), g. split. simpl. lia. split; auto. split; auto. simpl. now rewrite <- E.
  - destruct IH as (gs & g & H1 & H2 & H3 & E). exists (w :: gs), g. split. simpl. lia. split; auto. split; auto. simpl. now rewrite <- E, app_nil_r.
Qed.

(** ** Written tokens *)
Lemma space_not c : space c -> ~ letter c /\ ~ digit c /\ c <> ":"%char /\ c <> "."%char /\ c <> "_"%char /\ ~ In c symbol_chars /\ c <> quote_char.
Proof.
  rewrite <- letter_ok, <- digit_ok, <- memb_In. intros [->|[->|[->| ->]]]; vm_compute; repeat split; discriminate.
Qed.
Lemma symbol_all s k : In (s, k) symbol_table -> Forall (fun c => In c symbol_chars) (lit s).
Proof.
  intros H. assert (forallb (fun p => forallb (fun c => memb c symbol_chars) (lit (fst p))) symbol_table = true) as F by (vm_compute; reflexivity).
  rewrite forallb_forall in F. specialize (F _ H). cbn [fst] in F. apply Forall_forall. intros c Hc. rewrite forallb_forall in F.
  apply memb_In. auto.
Qed.
Lemma number_chars t : number t -> Forall (fun c => letter c \/ digit c \/ c = "."%char) t.
Proof.
  assert (letter "_") as Hu by (apply letter_ok; reflexivity).
  intros [n H|n u H Hf].
  - apply numeral_chars in H. eapply Forall_impl; [|exact H]. cbv beta. intuition auto.
  - apply Forall_app. split. apply numeral_chars in H. eapply Forall_impl; [|exact H]. cbv beta. intuition auto.
    constructor; auto. eapply Forall_impl; [|exact Hf]. cbv beta. intuition auto.
Qed.
Lemma lexeme_no_space k t : lexeme k t -> (exists u, t = quote_char :: u ++ [quote_char] /\ str_chars u) \/ Forall (fun c => ~ space c) t.
Proof.
  intros H. destruct (lexeme_cases _ _ H) as [(c & u & -> & Hc & Hu)|[(s & -> & Hs)|[[Hn _]|(u & -> & Hu & _)]]]; [right|right|right|left; eauto].
  - constructor. intros Hsp. now apply space_not in Hsp. eapply Forall_impl; [|exact Hu]. intros a Ha Hsp. apply space_not in Hsp as (S1 & S2 & S3 & S4 & S5 & S6 & S7). destruct Ha as [Ha|[Ha|Ha]]; auto.
  - eapply Forall_impl; [|apply (symbol_all _ _ Hs)]. intros a Ha Hsp. apply space_not in Hsp as (S1 & S2 & S3 & S4 & S5 & S6 & S7). auto.
  - eapply Forall_impl; [|apply (number_chars _ Hn)]. intros a Ha Hsp. apply space_not in Hsp as (S1 & S2 & S3 & S4 & S5 & S6 & S7). destruct Ha as [Ha|[Ha|Ha]]; auto.
Qed.

Lemma written_longest k t c rest : lexeme k t -> space c -> longest t (c :: rest).
Proof.
  intros Hl Hc k' u v Hu E. destruct (lexeme_no_space _ _ Hu) as [(a & -> & Ha)|Hns].
  - (* a string *)
    destruct t as [|x t]; [now apply lexeme_nonempty in Hl|]. simpl in E. injection E as <- E.
    destruct (lexeme_quote k (quote_char :: t) (t ++ []) [] Hl) as (b & Eb & Hb). { reflexivity. }
    injection Eb as ->. rewrite <- !app_assoc in E. simpl in E. apply str_unique in E as [-> _]; auto.
  - eapply prefix_max; [exact Hns|exact E|]. simpl. auto.
Qed.
Lemma written_not_gap k t c rest : lexeme k t -> space c -> ~ starts_gap (t ++ c :: rest).
Proof.
  intros Hl Hc [(x & r & E & Hx)|(r & E)].
  - destruct t as [|y t]; [now apply lexeme_nonempty in Hl|]. injection E as -> E.
    destruct (lexeme_no_space _ _ Hl) as [(a & Ea & Ha)|Hns].
    + injection Ea as -> _. apply space_not in Hx as (S1 & S2 & S3 & S4 & S5 & S6 & S7). auto.
    + inversion Hns; subst. contradiction.
  - assert (exists s, t = lit s /\ In (s, k) symbol_table) as (s & -> & Hs).
    { destruct t as [|y t]; [now apply lexeme_nonempty in Hl|]. injection E as -> E.
      destruct (lexeme_other k ("/"%char :: t) "/" t [] Hl) as [?|(? & _)]; auto. now rewrite app_nil_r.
      not_class. not_class. discriminate. discriminate. }
    apply space_not in Hc as (S1 & S2 & S3 & S4 & S5 & S6 & S7). simpl in Hs.
    repeat (destruct Hs as [Hs|Hs]; [injection Hs as <- <-; try discriminate E; try (injection E as -> E; apply S6; vm_compute; tauto)|]). contradiction.
Qed.

Lemma lexes_written ls : well_written ls -> forall p g, gap g ->
  lexes p (g ++ written_text ls) (written_tokens (p + length g) ls).
Proof.
  induction 1 as [|[[k t] g'] ls (Hl & Hg' & c & g'' & -> & Hc) Hls IH]; intros p g Hg; simpl.
  - rewrite app_nil_r. apply lexes_end. now constructor.
  - apply lexes_token; auto.
    + eapply written_not_gap; eauto.
    + eapply written_longest; eauto.
    + apply (IH (p + length g + length t) (c :: g'') Hg').
Qed.

Lemma lex_written ls : well_written ls -> lex_all (written_text ls) = Ret (written_tokens 0 ls).
Proof.
  intros H. destruct (lex_all_ok (written_text ls)) as (ts & -> & Hts). f_equal.
  eapply lexes_unique; eauto. apply (lexes_written ls H 0 []). constructor.
Qed.

(** ** Streams *)
Definition yields (l : lexer) (ts : list token) : Prop :=
  exists pre r, l_src l = pre ++ r /\ l_pos l = length pre /\
  match l_peeked l with
  | None => lexes (length pre) r ts
  | Some t => if tis t T_EOF then ts = [t] /\ r = [] /\ t = Token T_EOF [] (length pre)
              else exists ts', ts = t :: ts' /\ lexes (length pre) r ts'
  end.

Lemma yields_new s ts : lexes 0 s ts -> yields (new_lexer s) ts.
Proof. intros H. exists [], s. simpl. auto. Qed.

Lemma lexes_nonnil p s ts : lexes p s ts -> ts <> [].
Proof. intros H. destruct H; discriminate. Qed.

Lemma lexes_nil n : lexes n [] [Token T_EOF [] n].
Proof.
  replace n with (n + length (@nil ascii)) at 2 by (simpl; lia). apply lexes_end. constructor. constructor.
Qed.

Lemma next_yields l ts : yields l ts -> exists l', lex_next l = Ret (cur ts, l') /\ yields l' (advance ts) /\ l_peeked l' = None.
Proof.
  destruct l as [src pos pk]. intros (pre & r & E1 & E2 & H). simpl in *. subst. unfold lex_next. cbn [l_peeked l_src l_pos].
  destruct pk as [t|].
  - exists (Lexer (pre ++ r) (length pre) None). split; [|split; [|reflexivity]].
    + destruct (tis t T_EOF); [destruct H as (-> & _)|destruct H as (ts' & -> & _)]; reflexivity.
    + destruct (tis t T_EOF).
      * destruct H as (-> & -> & ->). exists pre, []. cbn [l_src l_pos l_peeked]. split; auto. split; auto. simpl advance. apply lexes_nil.
      * destruct H as (ts' & -> & H). exists pre, r. cbn [l_src l_pos l_peeked]. split; auto. split; auto.
        simpl. destruct ts'; [|assumption]. now apply lexes_nonnil in H.
  - destruct (scan_step pre r) as (t & w & rest & -> & E & Hne & Heof & Hlex).
    rewrite E. cbn [obind]. destruct (lex_all_from_ok (length rest + 2) (pre ++ w) rest) as (ts0 & _ & Hts0). lia.
    rewrite app_length in Hts0. pose proof (lexes_unique _ _ _ H _ (Hlex _ Hts0)) as ->.
    unfold tis, tkind_eqb in *. destruct (tkind_eq_dec (tk t) T_EOF) as [He|He].
    + destruct (Heof He) as [-> ->]. eexists. split; [reflexivity|]. split; [|reflexivity].
      exists (pre ++ w), []. cbn [l_src l_pos l_peeked]. rewrite !app_nil_r. split; auto. rewrite app_length. split; auto.
      simpl advance. apply lexes_nil.
    + eexists. split; [reflexivity|]. split; [|reflexivity].
      exists (pre ++ w), rest. cbn [l_src l_pos l_peeked]. rewrite <- app_assoc, app_length. split; auto. split; auto.
      simpl. destruct ts0; [|assumption]. now apply lexes_nonnil in Hts0.
Qed.

Lemma peek_yields l ts : yields l ts -> exists l', lex_peek l = Ret (cur ts, l') /\ yields l' ts.
Proof.
  intros H. unfold lex_peek. destruct (l_peeked l) as [t|] eqn:Ep.
  - exists l. split; auto. destruct H as (pre & r & E1 & E2 & H). rewrite Ep in H.
    destruct (tis t T_EOF); [destruct H as (-> & _)|destruct H as (ts' & -> & _)]; reflexivity.
  - destruct (next_yields l ts H) as (l' & E & Hy & Hp). rewrite E. cbn [obind]. eexists. split; [reflexivity|].
    destruct Hy as (pre & r & E1 & E2 & Hy). rewrite Hp in Hy. exists pre, r. cbn [l_src l_pos l_peeked]. split; auto. split; auto.
    destruct H as (pre0 & r0 & F1 & F2 & H). rewrite Ep in H.
    destruct (lexes_ends _ _ _ H) as (ts' & -> & Hf). destruct ts' as [|t ts'].
    + cbn [app] in *. cbn [cur advance hd] in *. unfold tis. simpl tkind_eqb. cbv iota.
      assert (r = [] /\ length pre0 + length r0 = length pre) as [-> ->]; [|simpl; auto].
      destruct l as [src pos pk]. simpl in *. subst. unfold lex_next in E. cbn [l_peeked l_src l_pos] in E.
      destruct (scan_step pre0 r0) as (t & w & rest & -> & Es & Hne & Heof & Hlex). rewrite Es in E. cbn [obind] in E.
      injection E as -> <-. cbn [l_src l_pos] in *. destruct (Heof eq_refl) as [-> _]. rewrite app_nil_r in *.
      rewrite <- (app_nil_r (pre0 ++ w)) in E1.
      apply app_same_len in E1 as [E1 <-]. 2: { rewrite app_length. lia. }
      split; auto.
    + inversion Hf; subst. cbn [cur hd app advance] in *. unfold tis, tkind_eqb. destruct (tkind_eq_dec (tk t) T_EOF); [contradiction|].
      exists (ts' ++ [Token T_EOF [] (length pre0 + length r0)]). split; auto. destruct ts'; auto.
Qed.

Lemma call_yields c l ts : yields l ts -> exists l', call_lexer c l = Ret (fst (answer_of c ts), l') /\ yields l' (snd (answer_of c ts)).
Proof.
  intros H. destruct c as [| |k|k|k]; unfold call_lexer, answer_of; cbv zeta.
  - destruct (next_yields _ _ H) as (l' & E & Hy & _). rewrite E. simpl. eauto.
  - destruct (peek_yields _ _ H) as (l' & E & Hy). rewrite E. simpl. eauto.
  - unfold lex_peek_is. destruct (peek_yields _ _ H) as (l' & E & Hy). rewrite E. simpl. eauto.
  - unfold lex_expect. destruct (next_yields _ _ H) as (l' & E & Hy & _). rewrite E. cbn [obind]. unfold tis.
    destruct (tkind_eqb (tk (cur ts)) k); simpl; eauto.
  - unfold lex_consume_if, lex_peek_is. destruct (peek_yields _ _ H) as (l' & E & Hy). rewrite E. cbn [obind]. unfold tis.
    destruct (tkind_eqb (tk (cur ts)) k).
    + destruct (next_yields _ _ Hy) as (l'' & E' & Hy' & _). rewrite E'. simpl. eauto.
    + simpl. eauto.
Qed.

Lemma calls_yield cs : forall l ts, yields l ts -> call_lexers cs l = Ret (answers cs ts).
Proof.
  induction cs as [|c cs IH]; intros l ts H. reflexivity.
  cbn [call_lexers answers]. destruct (call_yields c l ts H) as (l' & E & Hy). rewrite E. cbn [obind].
  destruct (answer_of c ts) as [a ts']. cbn [fst snd] in *. now rewrite (IH _ _ Hy).
Qed.

Lemma calls_ok s ts cs : lex_all s = Ret ts -> call_lexers cs (new_lexer s) = Ret (answers cs ts).
Proof.
  intros H. destruct (lex_all_ok s) as (ts' & E & Hts). rewrite H in E. injection E as <-. apply calls_yield. now apply yields_new.
Qed.

Lemma lex_complete s ts : lex_all s = Ret ts <-> lexes 0 s ts.
Proof.
  destruct (lex_all_ok s) as (ts' & E & Hts). rewrite E. split.
  - intros [= <-]. auto.
  - intros H. f_equal. eapply lexes_unique; eauto.
Qed.
