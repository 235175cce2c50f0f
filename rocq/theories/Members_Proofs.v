(** Proofs for C74. *)
From Coq Require Import List Bool Arith ZArith Lia.
Import ListNotations.
From Verif Require Import Base Lexer_Model Lexer_Proofs DType_Spec DType_Model DType_Proofs DynObject_Model Function_Model
  Names_Spec Names_Model Names_Proofs Members_Spec Members_Model.
Local Open Scope Z_scope.

(** ** Lists of entries *)
Lemma text_eqb_same a : text_eqb a a = true.
Proof. now apply text_eqb_eq. Qed.
Lemma text_eqb_diff a b : a <> b -> text_eqb a b = false.
Proof. intros N. destruct (text_eqb a b) eqn:E; [apply text_eqb_eq in E; contradiction|reflexivity]. Qed.
Lemma find_put_key {A} (l : list (Z * A)) k a k' : find_key (put_key l k a) k' = if k =? k' then Some a else find_key l k'.
Proof.
  induction l as [|[k1 b] l IH]; cbn; [reflexivity|]. destruct (Z.eqb_spec k1 k).
  - cbn. subst k1. destruct (Z.eqb_spec k k'); reflexivity.
  - cbn. rewrite IH. destruct (Z.eqb_spec k1 k'); [|reflexivity]. destruct (Z.eqb_spec k k'); [congruence|reflexivity].
Qed.
Lemma find_put_text {A} (l : list (text * A)) n a n' : find_text (put_text l n a) n' = if text_eqb n n' then Some a else find_text l n'.
Proof.
  induction l as [|[n1 b] l IH]; cbn; [reflexivity|]. destruct (text_eqb n1 n) eqn:E.
  - apply text_eqb_eq in E. subst n1. cbn. destruct (text_eqb n n'); reflexivity.
  - cbn. rewrite IH. destruct (text_eqb n1 n') eqn:E1; [|reflexivity]. apply text_eqb_eq in E1. subst n1.
    destruct (text_eqb n n') eqn:E2; [|reflexivity]. apply text_eqb_eq in E2. subst n'. rewrite text_eqb_same in E. discriminate.
Qed.
Lemma put_text_names {A} (l : list (text * A)) n a : In n (map fst l) -> map fst (put_text l n a) = map fst l.
Proof.
  induction l as [|[n1 b] l IH]; cbn; [tauto|]. intros H. destruct (text_eqb n1 n) eqn:E; cbn; [reflexivity|].
  destruct H as [->|H]; [rewrite text_eqb_same in E; discriminate|]. now rewrite IH.
Qed.
Lemma find_text_app {A} (l l' : list (text * A)) n : find_text (l ++ l') n = match find_text l n with Some a => Some a | None => find_text l' n end.
Proof. induction l as [|[n1 b] l IH]; cbn; [reflexivity|]. destruct (text_eqb n1 n); auto. Qed.
Lemma find_text_in {A} (l : list (text * A)) n : find_text l n <> None <-> In n (map fst l).
Proof.
  induction l as [|[n1 b] l IH]; cbn; [tauto|]. destruct (text_eqb n1 n) eqn:E.
  - apply text_eqb_eq in E. split; [auto|discriminate].
  - split; [intros H; right; now apply IH|]. intros [->|H]; [rewrite text_eqb_same in E; discriminate|]. now apply IH.
Qed.

(** ** Types *)
Lemma plain_inj t u : plain t -> plain u -> control (ctrl_of (get_dtype t)) = control (ctrl_of (get_dtype u)) -> t = u.
Proof.
  intros T U E. pose proof (plain_same t u T U E) as S. destruct T as [T T'], U as [U U'].
  pose proof (lim_ok_2047 2047 (Z.le_refl _)) as L.
  assert (erase_lengths t = erase_lengths u) as H.
  { destruct (eqb_iff_same_up_to_lengths t t T T) as (r & R & I).
    destruct (eqb_iff_same_up_to_lengths t u T U) as (r' & R' & I'). rewrite <- S in R'. rewrite R in R'.
    injection R' as <-. apply I'. now apply I. }
  assert (forall t u, supported 2047 t -> supported 2047 u -> flat t = true -> flat u = true -> isP t = false -> isP u = false ->
    fixed_size (ctrl_of (get_dtype t)) = fixed_size (ctrl_of (get_dtype u)) -> erase_lengths t = erase_lengths u -> t = u) as K.
  { clear - L. intros t u T U FT FU PT PU S H.
    destruct t, u; try discriminate; cbn [erase_lengths flat] in *; try exact H.
    - destruct t, u; try discriminate. exact H.
    - destruct t, u; try discriminate. injection H as <-. rewrite !(shape_array 2047) in S by assumption.
      cbn in S. congruence.
    - destruct t1, t2, u1, u2; try discriminate. exact H.
    - destruct t1, t2, u1, u2; try discriminate. exact H.
    - destruct t, u; try discriminate. exact H. }
  destruct (isP t) eqn:PT, (isP u) eqn:PU.
  - destruct t; try discriminate PT. destruct u; try discriminate PU.
    assert (isP t = false) as P1 by (destruct t; try reflexivity; discriminate T').
    assert (isP u = false) as P2 by (destruct u; try reflexivity; discriminate U').
    f_equal. apply K; try assumption.
    + destruct t; try discriminate T'; exact T'.
    + destruct u; try discriminate U'; exact U'.
    + rewrite !(shape_ptr 2047) in S by assumption. rewrite P1, P2 in S. injection S as _ _ _ S _. exact S.
    + cbn in H. congruence.
  - destruct t; try discriminate PT. destruct u; try discriminate PU; discriminate H.
  - destruct u; try discriminate PU. destruct t; try discriminate PT; discriminate H.
  - apply K; try assumption. now rewrite S.
Qed.

(** ** The registry after some registrations *)
Definition key (t : cpptype) : Z := control (ctrl_of (get_dtype t)).

(** What an entry says about the registrations [h] of the members [n] of [t]. *)
Definition says_field (h : list offer) (t : cpptype) (n : text) (m : member) : Prop :=
  match m_field m with
  | Some d => exists f off, first (a_field t n) h (OField t n f off) /\ d = get_dtype f /\ m_offset m = off
  | None => Forall (fun o => ~ a_field t n o) h
  end.
Definition says_method (h : list offer) (t : cpptype) (n : text) (m : member) : Prop :=
  match m_func m with
  | Some d => exists b ret args f, first (a_method t n) h (OMethod t n b ret args f) /\
      d = Desc n (get_dtype ret) (get_dtype (if b then CPtr t else t) :: map get_dtype args) f None false
  | None => Forall (fun o => ~ a_method t n o) h
  end.
Definition says (h : list offer) (t : cpptype) (n : text) (r : option member) : Prop :=
  match r with
  | Some m => Exists (a_member t n) h /\ m_name m = n /\ says_field h t n m /\ says_method h t n m
  | None => Forall (fun o => ~ a_member t n o) h
  end.

Record state_of (h : list offer) (R : index) : Prop := {
  s_says : forall t n, plain t -> says h t n (get_member R (get_dtype t) n);
  s_names : forall t, plain t -> new_names t [] h (map fst (members_at R (get_dtype t)));
  s_some : forall t, plain t -> find_key R (key t) <> Some []
}.

Lemma first_snoc {A} (P : A -> Prop) l a x : first P l a -> first P (l ++ [x]) a.
Proof. intros (l1 & l2 & -> & H & F). exists l1, (l2 ++ [x]). rewrite <- app_assoc. auto. Qed.
Lemma first_new {A} (P : A -> Prop) l a : Forall (fun b => ~ P b) l -> P a -> first P (l ++ [a]) a.
Proof. intros F H. exists l, []. auto. Qed.
Lemma Forall_snoc {A} (P : A -> Prop) l a : Forall P (l ++ [a]) <-> Forall P l /\ P a.
Proof.
  rewrite Forall_app. split; intros [H K]; split; auto. now inversion K.
Qed.

(** A registration for another type or name changes nothing said. *)
Lemma says_other h o t n r : ~ a_member t n o -> says h t n r -> says (h ++ [o]) t n r.
Proof.
  intros N. assert (~ a_field t n o) as NF by (intros (f & off & ->); apply N; split; reflexivity).
  assert (~ a_method t n o) as NM by (intros (b & ret & args & f & ->); apply N; split; reflexivity).
  destruct r as [m|]; cbn [says].
  - intros (E & A & B & C). split; [apply Exists_app; auto|]. split; [exact A|]. unfold says_field, says_method in *. split.
    + destruct (m_field m); [|apply Forall_snoc; auto]. destruct B as (f & off & F & B). exists f, off. split; [now apply first_snoc|exact B].
    + destruct (m_func m); [|apply Forall_snoc; auto]. destruct C as (b & ret & args & f & F & C). exists b, ret, args, f.
      split; [now apply first_snoc|exact C].
  - intros F. apply Forall_snoc. auto.
Qed.

Lemma get_member_at R T n : get_member R T n = find_text (members_at R T) n.
Proof. unfold get_member, members_at, no_members. destruct (find_key R (control (ctrl_of T))); reflexivity. Qed.

Lemma names_snoc t seen l ns o : new_names t seen l ns ->
  (o_type o <> t -> new_names t seen (l ++ [o]) ns) /\
  (o_type o = t -> In (o_name o) seen \/ In (o_name o) ns -> new_names t seen (l ++ [o]) ns) /\
  (o_type o = t -> ~ In (o_name o) seen -> ~ In (o_name o) ns -> new_names t seen (l ++ [o]) (ns ++ [o_name o])).
Proof.
  induction 1 as [seen|seen x l ns N H IH|seen x l ns E I H IH|seen x l ns E I H IH]; cbn [app].
  - split; [|split].
    + intros N. apply names_other; [exact N|constructor].
    + intros E [I|[]]. apply names_again; [exact E|exact I|constructor].
    + intros E I _. apply names_first; [exact E|exact I|constructor].
  - destruct IH as (A & B & C). split; [|split]; intros; apply names_other; auto.
  - destruct IH as (A & B & C). split; [|split]; intros; apply names_again; auto.
  - destruct IH as (A & B & C). split; [|split]; intros; apply names_first; auto.
    + apply B; [assumption|]. destruct H1 as [H1|[H1|H1]]; [left; right; exact H1|left; left; exact H1|right; exact H1].
    + apply C; [assumption| |]; cbn in *; intuition.
Qed.

(** One registration. *)
Lemma offer_one h R o R' b : Forall (registrable plain) h -> registrable plain o -> state_of h R -> offer_member o R = (R', b) ->
  state_of (h ++ [o]) R' /\ (b = true <-> Forall (fun o' => ~ same_kind o o') h).
Proof.
  intros FH (PO & NP & OFF) ST E.
  remember (o_type o) as t eqn:Ht. remember (o_name o) as n eqn:Hn.
  (* the members of the type before, and how they change *)
  assert (exists ms', R' = put_key R (key t) ms' /\ ms' <> [] /\
    (forall n', n' <> n -> find_text ms' n' = find_text (members_at R (get_dtype t)) n') /\
    says (h ++ [o]) t n (find_text ms' n) /\
    map fst ms' = map fst (members_at R (get_dtype t)) ++ (if existsb (text_eqb n) (map fst (members_at R (get_dtype t))) then [] else [n]) /\
    (b = true <-> Forall (fun o' => ~ same_kind o o') h)) as (ms' & -> & NE & OTHER & SAYS & NAMES & RES).
  { pose proof (s_says _ _ ST t n PO) as SAYS0. rewrite get_member_at in SAYS0.
    assert (forall (e : member), find_text (members_at R (get_dtype t)) n = Some e -> existsb (text_eqb n) (map fst (members_at R (get_dtype t))) = true) as KNOWN.
    { intros e F. apply existsb_exists. exists n. split; [|apply text_eqb_same]. apply find_text_in. now rewrite F. }
    assert (find_text (members_at R (get_dtype t)) n = None -> existsb (text_eqb n) (map fst (members_at R (get_dtype t))) = false) as UNKNOWN.
    { intros F. destruct (existsb _ _) eqn:X; [|reflexivity]. apply existsb_exists in X. destruct X as (n' & I & X).
      apply text_eqb_eq in X. subst n'. apply find_text_in in I. contradiction. }
    assert (forall (e : member), find_text (members_at R (get_dtype t)) n = Some e -> members_at R (get_dtype t) <> []) as SOME.
    { intros e F X. rewrite X in F. discriminate. }
    assert (forall (x : member), put_text (members_at R (get_dtype t)) n x <> []) as PNE.
    { intros x. destruct (members_at R (get_dtype t)) as [|[n1 y] l]; cbn; [discriminate|]. destruct (text_eqb n1 n); discriminate. }
    assert (get_dtype (CPtr t) = to_ptr (get_dtype t)) as PTR.
    { destruct PO as [S _]. rewrite (shape_ptr 2047) by (assumption || (apply lim_ok_2047; lia)).
      assert (isP t = false) as -> by (destruct t eqn:X; try reflexivity; destruct (NP _ eq_refl)). reflexivity. }
    destruct o as [t' n' f off|t' n' bp ret args f]; cbn [o_type o_name] in Ht, Hn; subst t' n'; cbn [offer_member] in E.
    - unfold add_field in E. fold (key t) in E. destruct (find_text (members_at R (get_dtype t)) n) as [e|] eqn:F.
      + pose proof (KNOWN _ eq_refl) as K. destruct SAYS0 as (EX & NM & SF & SM). unfold says_field in SF.
        destruct (m_field e) as [d|] eqn:MF; injection E as <- <-.
        * exists (members_at R (get_dtype t)). split; [reflexivity|]. split; [now apply (SOME e)|]. split; [reflexivity|].
          rewrite F, K, app_nil_r. split; [|split; [reflexivity|]].
          -- destruct SF as (f1 & off1 & F1 & -> & O1). split; [apply Exists_app; auto|]. split; [exact NM|].
             unfold says_field, says_method in *. rewrite MF. split; [exists f1, off1; auto using first_snoc|].
             destruct (m_func e).
             ++ destruct SM as (b1 & r1 & a1 & g1 & M1 & ->). exists b1, r1, a1, g1. auto using first_snoc.
             ++ apply Forall_snoc. split; [exact SM|]. intros (? & ? & ? & ? & X). discriminate X.
          -- split; [discriminate|]. intros FA. exfalso. destruct SF as (f1 & off1 & (l1 & l2 & -> & P1 & _) & _).
             rewrite Forall_app in FA. destruct FA as [_ FA]. inversion FA as [|? ? X]. apply X. cbn. eexists _, _. reflexivity.
        * eexists. split; [reflexivity|]. split; [apply PNE|]. rewrite K, app_nil_r. split; [|split; [|split]].
          -- intros n' N. rewrite find_put_text. now rewrite text_eqb_diff by congruence.
          -- rewrite find_put_text, text_eqb_same. split; [apply Exists_app; auto|]. cbn [m_name]. split; [reflexivity|].
             unfold says_field, says_method in *. cbn [m_field m_func m_offset]. split.
             ++ exists f, off. split; [apply first_new; [exact SF|eexists _, _; reflexivity]|]. split; [reflexivity|].
                apply wrapu_id. exact OFF.
             ++ destruct (m_func e).
                ** destruct SM as (b1 & r1 & a1 & g1 & M1 & ->). exists b1, r1, a1, g1. auto using first_snoc.
                ** apply Forall_snoc. split; [exact SM|]. intros (? & ? & ? & ? & X). discriminate X.
          -- apply put_text_names. apply find_text_in. now rewrite F.
          -- split; [intros _; exact SF|auto].
      + injection E as <- <-. pose proof (UNKNOWN eq_refl) as K. cbn [says] in SAYS0. rewrite K.
        assert (Forall (fun o => ~ a_field t n o) h) as NF.
        { eapply Forall_impl; [|exact SAYS0]. intros o N (? & ? & ->). apply N. split; reflexivity. }
        assert (Forall (fun o => ~ a_method t n o) h) as NM.
        { eapply Forall_impl; [|exact SAYS0]. intros o N (? & ? & ? & ? & ->). apply N. split; reflexivity. }
        eexists. split; [reflexivity|]. split; [apply not_eq_sym, app_cons_not_nil|]. split; [|split; [|split]].
        * intros n' N. rewrite find_text_app. cbn. rewrite text_eqb_diff by congruence. now destruct (find_text _ n').
        * rewrite find_text_app, F. cbn [find_text]. rewrite text_eqb_same. split; [apply Exists_app; right; constructor; split; reflexivity|].
          split; [reflexivity|]. unfold says_field, says_method. cbn [m_field m_func m_offset]. split.
          -- exists f, off. split; [apply first_new; [exact NF|eexists _, _; reflexivity]|]. split; [reflexivity|].
             apply wrapu_id. exact OFF.
          -- apply Forall_snoc. split; [exact NM|]. intros (? & ? & ? & ? & X). discriminate X.
        * rewrite map_app. reflexivity.
        * split; [intros _; exact NF|auto].
    - unfold add_method in E. fold (key t) in E.
      assert (method_desc (get_dtype t) bp n (get_dtype ret) (map get_dtype args) f =
        Desc n (get_dtype ret) (get_dtype (if bp then CPtr t else t) :: map get_dtype args) f None false) as MD.
      { unfold method_desc. destruct bp; [now rewrite PTR|reflexivity]. }
      rewrite MD in E.
      destruct (find_text (members_at R (get_dtype t)) n) as [e|] eqn:F.
      + pose proof (KNOWN _ eq_refl) as K. destruct SAYS0 as (EX & NM & SF & SM). unfold says_method in SM.
        destruct (m_func e) as [d|] eqn:MF; injection E as <- <-.
        * exists (members_at R (get_dtype t)). split; [reflexivity|]. split; [now apply (SOME e)|]. split; [reflexivity|].
          rewrite F, K, app_nil_r. split; [|split; [reflexivity|]].
          -- destruct SM as (b1 & r1 & a1 & g1 & M1 & ->). split; [apply Exists_app; auto|]. split; [exact NM|].
             unfold says_field, says_method in *. rewrite MF. split; [|exists b1, r1, a1, g1; auto using first_snoc].
             destruct (m_field e).
             ++ destruct SF as (f1 & off1 & F1 & -> & O1). exists f1, off1. auto using first_snoc.
             ++ apply Forall_snoc. split; [exact SF|]. intros (? & ? & X). discriminate X.
          -- split; [discriminate|]. intros FA. exfalso. destruct SM as (b1 & r1 & a1 & g1 & (l1 & l2 & -> & P1 & _) & _).
             rewrite Forall_app in FA. destruct FA as [_ FA]. inversion FA as [|? ? X]. apply X. cbn. eexists _, _, _, _. reflexivity.
        * eexists. split; [reflexivity|]. split; [apply PNE|]. rewrite K, app_nil_r. split; [|split; [|split]].
          -- intros n' N. rewrite find_put_text. now rewrite text_eqb_diff by congruence.
          -- rewrite find_put_text, text_eqb_same. split; [apply Exists_app; auto|]. cbn [m_name]. split; [exact NM|].
             unfold says_field, says_method in *. cbn [m_field m_func m_offset]. split.
             ++ destruct (m_field e).
                ** destruct SF as (f1 & off1 & F1 & -> & O1). exists f1, off1. auto using first_snoc.
                ** apply Forall_snoc. split; [exact SF|]. intros (? & ? & X). discriminate X.
             ++ exists bp, ret, args, f. split; [apply first_new; [exact SM|eexists _, _, _, _; reflexivity]|reflexivity].
          -- apply put_text_names. apply find_text_in. now rewrite F.
          -- split; [intros _; exact SM|auto].
      + injection E as <- <-. pose proof (UNKNOWN eq_refl) as K. cbn [says] in SAYS0. rewrite K.
        assert (Forall (fun o => ~ a_field t n o) h) as NF.
        { eapply Forall_impl; [|exact SAYS0]. intros o N (? & ? & ->). apply N. split; reflexivity. }
        assert (Forall (fun o => ~ a_method t n o) h) as NM.
        { eapply Forall_impl; [|exact SAYS0]. intros o N (? & ? & ? & ? & ->). apply N. split; reflexivity. }
        eexists. split; [reflexivity|]. split; [apply not_eq_sym, app_cons_not_nil|]. split; [|split; [|split]].
        * intros n' N. rewrite find_text_app. cbn. rewrite text_eqb_diff by congruence. now destruct (find_text _ n').
        * rewrite find_text_app, F. cbn [find_text]. rewrite text_eqb_same. split; [apply Exists_app; right; constructor; split; reflexivity|].
          split; [reflexivity|]. unfold says_field, says_method. cbn [m_field m_func m_offset]. split.
          -- apply Forall_snoc. split; [exact NF|]. intros (? & ? & X). discriminate X.
          -- exists bp, ret, args, f. split; [apply first_new; [exact NM|eexists _, _, _, _; reflexivity]|reflexivity].
        * rewrite map_app. reflexivity.
        * split; [intros _; exact NM|auto]. }
  split; [|exact RES]. split.
  - intros t1 n1 P1. rewrite get_member_at. unfold members_at. fold (key t1). rewrite find_put_key.
    destruct (Z.eqb_spec (key t) (key t1)) as [K|K].
    + pose proof (plain_inj t t1 PO P1 K) as <-. destruct (list_eq_dec Ascii.ascii_dec n1 n) as [->|N]; [exact SAYS|].
      rewrite OTHER by exact N. apply says_other; [intros [_ X]; congruence|]. rewrite <- get_member_at. now apply (s_says _ _ ST).
    + fold (members_at R (get_dtype t1)). apply says_other; [intros [X _]; apply K; congruence|].
      pose proof (s_says _ _ ST t1 n1 P1) as Q. rewrite get_member_at in Q. unfold members_at in Q. exact Q.
  - intros t1 P1. unfold members_at. fold (key t1). rewrite find_put_key.
    pose proof (names_snoc t1 [] h _ o (s_names _ _ ST t1 P1)) as (A & B & C). rewrite <- ?Ht, <- ?Hn in *.
    destruct (Z.eqb_spec (key t) (key t1)) as [K|K].
    + pose proof (plain_inj t t1 PO P1 K) as <-. rewrite NAMES. destruct (existsb _ _) eqn:X.
      * rewrite app_nil_r. apply B; [reflexivity|]. apply existsb_exists in X. destruct X as (n' & I & X). apply text_eqb_eq in X. subst n'. auto.
      * apply C; [reflexivity|auto|]. intros I. assert (existsb (text_eqb n) (map fst (members_at R (get_dtype t))) = true) as Y.
        { apply existsb_exists. exists n. split; [exact I|apply text_eqb_same]. } congruence.
    + apply A. intros X. apply K. congruence.
  - intros t1 P1. rewrite find_put_key. destruct (Z.eqb_spec (key t) (key t1)) as [K|K]; [congruence|]. now apply (s_some _ _ ST).
Qed.

Lemma empty_state : state_of [] [].
Proof. split; intros; cbn; try constructor; discriminate. Qed.

Lemma offer_all : forall os h R R' bs, Forall (registrable plain) (h ++ os) -> state_of h R -> offer_members os R = (R', bs) ->
  state_of (h ++ os) R' /\ length bs = length os /\
  forall l1 o l2, os = l1 ++ o :: l2 -> (nth (length l1) bs false = true <-> Forall (fun o' => ~ same_kind o o') (h ++ l1)).
Proof.
  induction os as [|o os IH]; intros h R R' bs FH ST E; cbn in E.
  - injection E as <- <-. rewrite app_nil_r. split; [exact ST|]. split; [reflexivity|]. intros [|] ? ?; discriminate.
  - destruct (offer_member o R) as [R1 b] eqn:E1. destruct (offer_members os R1) as [R2 bs'] eqn:E2. injection E as <- <-.
    pose proof FH as FH'. rewrite Forall_app in FH'. destruct FH' as [F1 F2]. inversion F2 as [|? ? F3 F4]. subst.
    destruct (offer_one h R o R1 b F1 F3 ST E1) as [ST1 RES].
    replace (h ++ o :: os) with ((h ++ [o]) ++ os) in * by now rewrite <- app_assoc.
    destruct (IH (h ++ [o]) R1 R2 bs' FH ST1 E2) as (A & B & C). split; [exact A|]. split; [cbn; now rewrite B|].
    intros [|x l1] y l2 X; cbn in X; injection X as <- X.
    + cbn. rewrite app_nil_r. exact RES.
    + cbn [length nth]. rewrite (C l1 y l2 X). rewrite <- app_assoc. reflexivity.
Qed.

(** ** The theorems *)
Theorem first_wins os : Forall (registrable plain) os -> forall t n, plain t ->
  says os t n (get_member (fst (offer_members os [])) (get_dtype t) n).
Proof.
  intros F t n P. destruct (offer_members os []) as [R bs] eqn:E. cbn [fst].
  destruct (offer_all os [] [] R bs F empty_state E) as (ST & _). now apply (s_says _ _ ST).
Qed.
Theorem results os : Forall (registrable plain) os -> length (snd (offer_members os [])) = length os /\
  forall l1 o l2, os = l1 ++ o :: l2 ->
  (nth (length l1) (snd (offer_members os [])) false = true <-> Forall (fun o' => ~ same_kind o o') l1).
Proof.
  intros F. destruct (offer_members os []) as [R bs] eqn:E. cbn [snd].
  destruct (offer_all os [] [] R bs F empty_state E) as (_ & L & H). split; [exact L|]. exact H.
Qed.
Lemma find_self {A} (l : list (text * A)) : NoDup (map fst l) -> map (fun e => find_text l (fst e)) l = map (fun e => Some (snd e)) l.
Proof.
  intros N. apply map_ext_in. intros [n a] I. cbn. induction l as [|[n1 b] l IH]; [destruct I|]. cbn in *.
  inversion N as [|? ? N1 N2]. subst. destruct I as [[= -> ->]|I]; [now rewrite text_eqb_same|].
  rewrite text_eqb_diff; [now apply IH|]. intros ->. apply N1. apply in_map_iff. exists (n, a). auto.
Qed.
Lemma names_fresh t seen l ns : new_names t seen l ns -> NoDup ns /\ Forall (fun n => ~ In n seen) ns.
Proof.
  induction 1 as [seen|seen x l ns N H IH|seen x l ns E I H IH|seen x l ns E I H IH]; auto using NoDup_nil.
  destruct IH as [A B]. split.
  - constructor; [|exact A]. intros X. rewrite Forall_forall in B. apply (B _ X). now left.
  - constructor; [exact I|]. eapply Forall_impl; [|exact B]. cbn. intuition.
Qed.
(** The members listed: one for each name, in the order of the first registrations, each as it is looked up. *)
Theorem listing os : Forall (registrable plain) os -> forall t, plain t ->
  match get_members (fst (offer_members os [])) (get_dtype t) with
  | None => Forall (fun o => o_type o <> t) os
  | Some ms => exists ns, new_names t [] os ns /\ ns <> [] /\ NoDup ns /\
      map (fun n => get_member (fst (offer_members os [])) (get_dtype t) n) ns = map Some ms
  end.
Proof.
  intros F t P. destruct (offer_members os []) as [R bs] eqn:E. cbn [fst].
  destruct (offer_all os [] [] R bs F empty_state E) as (ST & _). cbn [app] in ST.
  pose proof (s_names _ _ ST t P) as N. pose proof (s_some _ _ ST t P) as NE. pose proof (fun n => s_says _ _ ST t n P) as SY.
  unfold get_members. unfold key in NE. unfold members_at, no_members in N.
  destruct (find_key R (control (ctrl_of (get_dtype t)))) as [ms|] eqn:K; cbn [option_map].
  - exists (map fst ms). split; [exact N|]. split; [destruct ms; [congruence|discriminate]|]. split; [now apply names_fresh in N|].
    rewrite !map_map. rewrite <- (find_self ms) by (now apply names_fresh in N). apply map_ext. intros e. unfold get_member. now rewrite K.
  - apply Forall_forall. intros o I X. specialize (SY (o_name o)). unfold get_member in SY. rewrite K in SY. cbn in SY.
    rewrite Forall_forall in SY. apply (SY o I). split; [exact X|reflexivity].
Qed.

(** Types with the same control word. *)
Lemma shared R T U : control (ctrl_of T) = control (ctrl_of U) -> forall n, get_member R T n = get_member R U n.
Proof. intros E n. unfold get_member. now rewrite E. Qed.
Lemma seq_of_compound k t u : supported 2047 t -> supported 2047 u -> compound t = true -> compound u = true ->
  key (CSeq k t) = key (CSeq k u).
Proof.
  intros T U CT CU. pose proof (lim_ok_2047 2047 (Z.le_refl _)) as L. unfold key.
  destruct t; try discriminate CT; destruct u; try discriminate CU;
    rewrite !(shape_seq 2047) by (assumption || exact L); reflexivity.
Qed.
Theorem containers_share k t u : supported 2047 t -> supported 2047 u -> compound t = true -> compound u = true ->
  forall os n, get_member (fst (offer_members os [])) (get_dtype (CSeq k u)) n =
               get_member (fst (offer_members os [])) (get_dtype (CSeq k t)) n.
Proof. intros T U CT CU os n. apply shared. symmetry. now apply seq_of_compound. Qed.
