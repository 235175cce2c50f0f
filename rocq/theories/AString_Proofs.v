(** Proofs about strings whose bytes are in an arena. *)
From Coq Require Import List Arith Bool Lia.
Import ListNotations.
From Verif Require Import Base AString_Spec AString_Model.

Lemma nth_set_nth_same : forall A (l : list A) k x, k < length l -> nth_error (set_nth l k x) k = Some x.
Proof. induction l; destruct k; cbn; intros; try lia; [reflexivity|]. apply IHl. lia. Qed.
Lemma nth_set_nth_other : forall A (l : list A) k j x, j <> k -> nth_error (set_nth l k x) j = nth_error l j.
Proof. induction l; destruct k, j; cbn; intros; try lia; try reflexivity. apply IHl. lia. Qed.
Lemma length_set_nth : forall A (l : list A) k x, length (set_nth l k x) = length l.
Proof. induction l; destruct k; cbn; intros; congruence. Qed.
Lemma nth_lt : forall A (l : list A) k x, nth_error l k = Some x -> k < length l.
Proof. intros. apply nth_error_Some. congruence. Qed.

(** String [s] has text [w] in arena [a]. *)
Definition good (sso : nat) (bs : list block) (s : str) (w : text) (a : nat) : Prop :=
  s_alloc s = a /\ s_len s = length w /\ length w <= capacity sso (s_place s) /\
  match s_place s with
  | Local b => firstn (length w) b = w
  | Block id _ => exists b, nth_error bs id = Some b /\ b_live b = true /\ b_arena b = a /\ firstn (length w) (b_bytes b) = w
  end.

Definition uses (s : str) (id : nat) : Prop := match s_place s with Local _ => False | Block i _ => i = id end.

Definition inv (sso : nat) (V : values) (W : world) : Prop :=
  (forall x w a, V x = Some (w, a) -> exists s, strs W x = Some s /\ good sso (blocks W) s w a) /\
  (forall x y s t id, V x <> None -> V y <> None -> strs W x = Some s -> strs W y = Some t ->
     uses s id -> uses t id -> x = y).

(** Blocks change only where [mine] says, and new ones are added. *)
Definition frame (mine : nat -> Prop) (bs bs' : list block) : Prop :=
  length bs <= length bs' /\ forall id, id < length bs -> ~ mine id -> nth_error bs' id = nth_error bs id.

Lemma frame_refl : forall m bs, frame m bs bs.
Proof. split; auto. Qed.
Lemma good_frame : forall sso m bs bs' s w a, frame m bs bs' -> (forall id, uses s id -> ~ m id) -> good sso bs s w a -> good sso bs' s w a.
Proof.
  intros sso m bs bs' s w a [Hl Hf] Hm (H1 & H2 & H3 & H4). repeat split; auto.
  unfold uses in Hm. destruct (s_place s); auto. destruct H4 as (b & Hb & H4). exists b. split; auto.
  rewrite Hf; auto. eapply nth_lt; eauto.
Qed.
Lemma good_uses : forall sso bs s w a id, good sso bs s w a -> uses s id -> id < length bs.
Proof.
  intros sso bs s w a id (_ & _ & _ & H) U. unfold uses in U. destruct (s_place s); [contradiction|].
  subst. destruct H as (b & H & _). eapply nth_lt; eauto.
Qed.

Lemma put_0 : forall w old, firstn (length w) (put 0 w old) = w.
Proof. intros. unfold put. cbn. rewrite firstn_app, Nat.sub_diag, firstn_all, firstn_O, app_nil_r. reflexivity. Qed.
Lemma put_end : forall v w old, firstn (length v) old = v -> firstn (length v + length w) (put (length v) w old) = v ++ w.
Proof.
  intros v w old H. unfold put. rewrite H. rewrite app_assoc, <- app_length, firstn_app, Nat.sub_diag, firstn_all, firstn_O, app_nil_r.
  reflexivity.
Qed.

(** Writing. *)
Lemma store_ok : forall sso bs s v a w pre, good sso bs s v a -> firstn (length pre) v = pre -> length pre <= length v ->
  length pre + length w <= capacity sso (s_place s) ->
  exists bs' s', store sso bs s (length pre) w = Ret (bs', s') /\ good sso bs' s' (pre ++ w) a /\
    frame (uses s) bs bs' /\ (forall id, uses s' id -> uses s id).
Proof.
  intros sso bs s v a w pre (H1 & H2 & H3 & H4) Hp Hl Hc. unfold store, uses, good. rewrite (proj2 (Nat.ltb_ge _ _) Hc).
  assert (G : forall b, firstn (length v) b = v -> firstn (length pre) b = pre).
  { intros b Hb. rewrite <- Hp at 2. rewrite <- Hb. rewrite firstn_firstn. f_equal. lia. }
  destruct (s_place s) as [b|id cap] eqn:P.
  - eexists _, _. split; [reflexivity|]. cbn in *. rewrite app_length. split; [repeat split; auto; apply put_end; auto|].
    split; [apply frame_refl|auto].
  - destruct H4 as (b & Hb & Hlive & Ha & Hx). rewrite Hb, Hlive.
    eexists _, _. split; [reflexivity|]. cbn in *. rewrite app_length. split.
    + repeat split; auto. eexists. split; [apply nth_set_nth_same; eapply nth_lt; eauto|]. cbn. repeat split; auto. apply put_end; auto.
    + split; [|auto]. split; [rewrite length_set_nth; auto|]. intros. apply nth_set_nth_other. congruence.
Qed.

Lemma store_new : forall sso bs a cap w, length w <= cap ->
  exists bs' s', (let '(bs, s) := create bs a cap in store sso bs s 0 w) = Ret (bs', s') /\ good sso bs' s' w a /\
    frame (fun _ => False) bs bs' /\ (forall id, uses s' id -> length bs <= id) /\ 1 <= length bs' /\ s_place s' = Block (length bs) cap.
Proof.
  intros sso bs a cap w Hc. unfold create, store. cbn [s_place s_alloc capacity Nat.add]. rewrite (proj2 (Nat.ltb_ge _ _) Hc).
  rewrite nth_error_app2, Nat.sub_diag by lia. cbn [nth_error b_live b_arena b_bytes].
  eexists _, _. split; [reflexivity|]. split; [|split; [|split; [|split]]].
  - repeat split; cbn; auto. eexists. split; [apply nth_set_nth_same; rewrite app_length; cbn; lia|]. cbn. repeat split; auto.
    apply put_0.
  - split; [rewrite length_set_nth, app_length; lia|]. intros. rewrite nth_set_nth_other by lia. apply nth_error_app1. auto.
  - cbn. intros; lia.
  - rewrite length_set_nth, app_length; cbn; lia.
  - reflexivity.
Qed.

(** What an operation on one string does: [s] is the string before. *)
Definition effect (sso : nat) (bs : list block) (s : str) (r : outcome (list block * str)) (w : text) (a : nat) : Prop :=
  exists bs' s', r = Ret (bs', s') /\ good sso bs' s' w a /\ frame (uses s) bs bs' /\
    (forall id, uses s' id -> uses s id \/ length bs <= id).

Lemma frame_weaken : forall (m m' : nat -> Prop) bs bs', (forall i, m i -> m' i) -> frame m bs bs' -> frame m' bs bs'.
Proof. intros m m' bs bs' H [A B]. split; auto. Qed.

Lemma effect_new : forall sso bs s a cap w, length w <= cap ->
  effect sso bs s (let '(bs, s) := create bs a cap in store sso bs s 0 w) w a.
Proof.
  intros sso bs s a cap w Hc. destruct (store_new sso bs a cap w Hc) as (bs' & s' & E & G & F & U & _).
  exists bs', s'. repeat split; auto; try apply G. apply F. intros; apply F; auto.
Qed.

Lemma assign_ok : forall sso bs s v a w, good sso bs s v a -> effect sso bs s (assign_text sso bs s w) w a.
Proof.
  intros sso bs s v a w G. unfold assign_text. destruct (length w <=? capacity sso (s_place s)) eqn:C.
  - apply Nat.leb_le in C. destruct (store_ok sso bs s v a w [] G) as (bs' & s' & E & G' & F & U); cbn; auto; try lia.
    exists bs', s'. repeat split; auto; try apply G'; try apply F; auto.
  - replace a with (s_alloc s) by apply G. apply effect_new. lia.
Qed.
Lemma clear_ok : forall sso bs s v a, good sso bs s v a -> effect sso bs s (store sso bs s 0 []) [] a.
Proof.
  intros sso bs s v a G. destruct (store_ok sso bs s v a [] [] G) as (bs' & s' & E & G' & F & U); cbn; auto; try lia.
  exists bs', s'. repeat split; auto; try apply G'; try apply F; auto.
Qed.
Lemma load_ok : forall sso bs s w a, good sso bs s w a -> load bs s = Ret w.
Proof.
  intros sso bs s w a (H1 & H2 & H3 & H4). unfold load. destruct (s_place s); rewrite H2.
  - now rewrite H4.
  - destruct H4 as (b & Hb & Hl & _ & Hx). now rewrite Hb, Hl, Hx.
Qed.
Lemma append_ok : forall sso bs s v a w, good sso bs s v a -> effect sso bs s (append_text sso bs s w) (v ++ w) a.
Proof.
  intros sso bs s v a w G. unfold append_text. pose proof G as (Ha & Hl & Hc & _). rewrite Hl.
  destruct (length v + length w <=? capacity sso (s_place s)) eqn:C.
  - apply Nat.leb_le in C. destruct (store_ok sso bs s v a w v G) as (bs' & s' & E & G' & F & U); auto using firstn_all.
    exists bs', s'. repeat split; auto; try apply G'; try apply F; auto.
  - rewrite (load_ok sso bs s v a G). cbn [obind]. rewrite <- Ha. apply effect_new. rewrite app_length. lia.
Qed.
Lemma construct_ok : forall sso bs s a w, effect sso bs s (construct sso bs a w) w a.
Proof.
  intros. unfold construct. destruct (length w <=? sso) eqn:C.
  - apply Nat.leb_le in C. unfold store. cbn [s_place s_alloc capacity Nat.add]. rewrite (proj2 (Nat.ltb_ge _ _) C).
    eexists _, _. split; [reflexivity|]. split; [repeat split; cbn; auto; apply put_0|].
    split; [apply frame_refl|]. cbn. contradiction.
  - apply effect_new. lia.
Qed.

(** Assigning a string: the result is in the arena of the other one. *)
Lemma base_assign_ok : forall sso bs s v a t w b, good sso bs s v a -> good sso bs t w b ->
  (forall id, uses s id -> ~ uses t id) -> effect sso bs s (base_assign sso bs s t) w b.
Proof.
  intros sso bs s v a t w b G T D. unfold base_assign.
  pose proof T as (Tb & Tl & _). pose proof G as (Ga & Gl & Gc & Gp).
  destruct (s_place s) as [by_|id cap] eqn:P.
  - rewrite (load_ok sso bs t w b T). cbn [obind].
    assert (good sso bs (mk_str (s_alloc t) (s_place s) (s_len s)) v b).
    { repeat split; cbn; auto; rewrite P; auto. }
    rewrite P in H. destruct (assign_ok _ _ _ _ _ w H) as (bs' & s' & E & G' & F & U).
    cbn [s_alloc s_place s_len] in *. rewrite P. exists bs', s'. rewrite E. split; auto. split; auto. split.
    + eapply frame_weaken; [|exact F]. unfold uses. cbn. contradiction.
    + intros i Hi. destruct (U i Hi) as [Q|Q]; auto. destruct Q.
  - destruct (s_alloc s =? s_alloc t) eqn:Ea.
    + apply Nat.eqb_eq in Ea. rewrite (load_ok sso bs t w b T). cbn [obind].
      assert (good sso bs (mk_str (s_alloc t) (s_place s) (s_len s)) v b).
      { repeat split; cbn; auto; rewrite P; auto. destruct Gp as (bb & ? & ? & ? & ?). exists bb. repeat split; auto. congruence. }
      destruct (assign_ok _ _ _ _ _ w H) as (bs' & s' & E & G' & F & U). rewrite E.
      exists bs', s'. split; auto.
    + destruct (s_len t <=? sso) eqn:C; cbn [s_place s_len s_alloc empty].
      * rewrite (load_ok sso bs t w b T). cbn [obind]. apply Nat.leb_le in C.
        assert (good sso bs (mk_str (s_alloc t) (Local []) 0) [] b) by (repeat split; cbn; auto; lia).
        destruct (assign_ok _ _ _ _ _ w H) as (bs' & s' & E & G' & F & U). rewrite E.
        exists bs', s'. split; auto. split; auto. split.
        -- eapply frame_weaken; [|exact F]. unfold uses. cbn. contradiction.
        -- intros i Hi. destruct (U i Hi) as [Q|Q]; auto. destruct Q.
      * unfold create. cbn [s_place s_len s_alloc].
        set (bs1 := bs ++ [mk_block (s_alloc t) true []]).
        assert (F1 : frame (fun _ => False) bs bs1).
        { unfold bs1. split; [rewrite app_length; lia|]. intros. apply nth_error_app1. auto. }
        assert (T1 : good sso bs1 t w b) by (eapply good_frame; eauto).
        rewrite (load_ok sso bs1 t w b T1). cbn [obind].
        assert (good sso bs1 (mk_str (s_alloc t) (Block (length bs) (s_len t)) 0) [] b).
        { repeat split; cbn; auto; try lia. eexists. unfold bs1. rewrite nth_error_app2, Nat.sub_diag by lia. cbn. split; [reflexivity|]. auto. }
        destruct (assign_ok _ _ _ _ _ w H) as (bs' & s' & E & G' & F & U). rewrite E.
        exists bs', s'. split; auto. split; auto.
        assert (L1 : length bs1 = S (length bs)) by (unfold bs1; rewrite app_length; cbn; lia).
        unfold uses in F, U. cbn in F, U. split.
        -- destruct F as [Fa Fb]. split; [lia|]. intros i Hi _. rewrite Fb by lia. apply F1; auto.
        -- intros i Hi. right. destruct (U i Hi); lia.
Qed.

(** One string changes. *)
Lemma inv_update : forall sso V W x s bs' s' w a, inv sso V W ->
  (forall y t id, y <> x -> V y <> None -> strs W y = Some t -> uses t id -> ~ uses s id) ->
  frame (uses s) (blocks W) bs' -> good sso bs' s' w a ->
  (forall id, uses s' id -> uses s id \/ length (blocks W) <= id) ->
  inv sso (vset V x (w, a)) (set_str (mk_world bs' (strs W)) x s').
Proof.
  intros sso V W x s bs' s' w a [I1 I2] D F G U. unfold vset, set_str. split; cbn [blocks strs].
  - intros y v b Hy. destruct (y =? x) eqn:E.
    + inversion Hy; subst. eauto.
    + apply Nat.eqb_neq in E. destruct (I1 y v b Hy) as (t & Ht & Gt). exists t. split; auto.
      eapply good_frame; eauto. intros id Hu. eapply D; eauto. congruence.
  - intros y z t u id Hy Hz Ty Tz Ut Uu.
    destruct (y =? x) eqn:Ey; destruct (z =? x) eqn:Ez; try apply Nat.eqb_eq in Ey; try apply Nat.eqb_eq in Ez; subst; auto.
    + exfalso. inversion Ty; subst. apply Nat.eqb_neq in Ez. destruct (V z) as [[vw va]|] eqn:Vz; [|congruence].
      destruct (I1 z vw va Vz) as (u' & Hu' & Gu). rewrite Tz in Hu'. inversion Hu'; subst u'.
      destruct (U id Ut) as [Q|Q].
      * eapply (D z u id); eauto. congruence.
      * pose proof (good_uses _ _ _ _ _ _ Gu Uu). lia.
    + exfalso. inversion Tz; subst. apply Nat.eqb_neq in Ey. destruct (V y) as [[vw va]|] eqn:Vy; [|congruence].
      destruct (I1 y vw va Vy) as (u' & Hu' & Gu). rewrite Ty in Hu'. inversion Hu'; subst u'.
      destruct (U id Uu) as [Q|Q].
      * eapply (D y t id); eauto. congruence.
      * pose proof (good_uses _ _ _ _ _ _ Gu Ut). lia.
    + eapply (I2 y z); eauto.
Qed.

Lemma inv_effect : forall sso V W x s w a r, inv sso V W ->
  (forall y t id, y <> x -> V y <> None -> strs W y = Some t -> uses t id -> ~ uses s id) ->
  effect sso (blocks W) s r w a ->
  exists W', update W x r = Ret (W', []) /\ inv sso (vset V x (w, a)) W'.
Proof.
  intros sso V W x s w a r I D (bs' & s' & -> & G & F & U). unfold update. cbn [obind].
  eexists. split; [reflexivity|]. eapply inv_update; eauto.
Qed.

Lemma inv_alone : forall sso V W x s, inv sso V W -> V x <> None -> strs W x = Some s ->
  forall y t id, y <> x -> V y <> None -> strs W y = Some t -> uses t id -> ~ uses s id.
Proof. intros sso V W x s [I1 I2] Vx Sx y t id N Vy Sy Ut Us. apply N. eapply (I2 y x); eauto. Qed.

Lemma inv_get : forall sso V W x w a, inv sso V W -> V x = Some (w, a) ->
  exists s, strs W x = Some s /\ good sso (blocks W) s w a /\
    (forall y t id, y <> x -> V y <> None -> strs W y = Some t -> uses t id -> ~ uses s id).
Proof.
  intros sso V W x w a I Vx. destruct (proj1 I x w a Vx) as (s & Hs & G). exists s. split; auto. split; auto.
  eapply inv_alone; eauto. congruence.
Qed.

(** Values that are equal for every string. *)
Lemma inv_ext : forall sso V V' W, (forall x, V x = V' x) -> inv sso V W -> inv sso V' W.
Proof.
  intros sso V V' W E [I1 I2]. split.
  - intros x w a H. rewrite <- E in H. auto.
  - intros x y s t id Hx Hy. rewrite <- E in Hx, Hy. eauto.
Qed.

(** A new empty string. *)
Lemma inv_empty : forall sso V W x a, inv sso V W -> inv sso (vset V x ([], a)) (set_str W x (empty a)).
Proof.
  intros sso V W x a I. destruct W as [bs ss]. change (set_str (mk_world bs ss) x (empty a)) with (set_str (mk_world bs (strs (mk_world bs ss))) x (empty a)).
  eapply inv_update with (s := empty a); eauto.
  - apply frame_refl.
  - repeat split; cbn; auto. lia.
Qed.

Lemma inv_same : forall sso V W W', blocks W = blocks W' -> (forall x, strs W x = strs W' x) -> inv sso V W -> inv sso V W'.
Proof.
  intros sso V W W' Hb Hs [I1 I2]. split.
  - intros x w a H. rewrite <- Hb, <- Hs. auto.
  - intros x y s t id Hx Hy Sx Sy. rewrite <- Hs in Sx, Sy. eauto.
Qed.

Lemma move_ok : forall sso V W x y s t old own w src, inv sso V W -> V x = Some (old, own) -> V y = Some (w, src) ->
  strs W x = Some s -> strs W y = Some t ->
  exists W', move_assign sso W x y s t = Ret (W', []) /\
    inv sso (vset (if own =? src then vset V y (old, src) else V) x (w, src)) W'.
Proof.
  intros sso V W x y s t old own w src I Vx Vy Sx Sy. unfold move_assign.
  destruct (inv_get _ _ _ _ _ _ I Vx) as (s0 & S0 & Gs & As). rewrite Sx in S0. inversion S0; subst s0.
  destruct (inv_get _ _ _ _ _ _ I Vy) as (t0 & T0 & Gt & At). rewrite Sy in T0. inversion T0; subst t0.
  pose proof (proj1 Gs) as Es. pose proof (proj1 Gt) as Et. rewrite Es, Et.
  destruct (own =? src) eqn:E.
  - destruct (Nat.eq_dec x y) as [Hxy|Hxy].
    { subst y. rewrite Sx in Sy. inversion Sy; subst t. rewrite Vx in Vy. inversion Vy; subst w src.
      eexists. split; [reflexivity|]. eapply inv_ext; [|eapply inv_same; [| |exact I]].
      - intros z. unfold vset. destruct (z =? x) eqn:Z; auto. apply Nat.eqb_eq in Z. subst. auto.
      - reflexivity.
      - intros z. cbn. destruct (z =? x) eqn:Z; auto. apply Nat.eqb_eq in Z. subst. auto. }
    apply Nat.eqb_eq in E. subst own. eexists. split; [reflexivity|]. destruct I as [I1 I2]. unfold vset, set_str. rewrite E in *. split; cbn [blocks strs].
    + intros z v b Hz. destruct (z =? x) eqn:Ex.
      * inversion Hz; subst. eauto.
      * destruct (z =? y) eqn:Ey; [inversion Hz; subst; eauto|eauto].
    + intros z1 z2 u1 u2 id H1 H2 S1 S2 U1 U2.
      assert (Q : forall z u, strs W z = Some u -> uses u id -> V z <> None -> z <> x -> z <> y -> ~ uses s id /\ ~ uses t id) by (split; eauto).
      destruct (z1 =? x) eqn:X1; [|destruct (z1 =? y) eqn:Y1]; destruct (z2 =? x) eqn:X2; try (destruct (z2 =? y) eqn:Y2);
        repeat match goal with
               | [ H : (_ =? _) = true |- _ ] => apply Nat.eqb_eq in H
               | [ H : (_ =? _) = false |- _ ] => apply Nat.eqb_neq in H
               | [ H : Some _ = Some _ |- _ ] => inversion H; clear H
               end; subst; try congruence; try lia; try reflexivity;
        try solve [exfalso; match goal with
                   | [ H1 : strs W ?z = Some ?u, H2 : uses ?u id, N : ?z <> x, N' : ?z <> y |- _ ] => 
                       assert (Vz : V z <> None) by assumption; destruct (Q z u H1 H2 Vz N N'); auto
                   end];
        try solve [exfalso; assert (x <> y) by congruence; eapply (As y); eauto; congruence];
        try solve [eapply I2; [| | exact S1 | exact S2 | eauto | eauto]; auto].
  - apply Nat.eqb_neq in E. unfold copy_assign.
    destruct (x =? y) eqn:Exy; [apply Nat.eqb_eq in Exy; congruence|]. apply Nat.eqb_neq in Exy.
    eapply inv_effect; eauto. eapply base_assign_ok; eauto. intros id Us Ut. eapply (As y t id); eauto. congruence.
Qed.

Lemma step_ok : forall sso V W o V' l, inv sso V W -> vstep follows V o = Some (V', l) ->
  exists W', step sso W o = Ret (W', l) /\ inv sso V' W'.
Proof.
  intros sso V W o V' l I H. destruct o; cbn [vstep step] in *; unfold follows in H; unfold with_str.
  - inversion H; subst. eapply inv_effect with (s := empty 0); eauto. apply construct_ok.
  - destruct (x =? y) eqn:E; [discriminate|]. apply Nat.eqb_neq in E. destruct (V y) as [[w src]|] eqn:Vy; [|discriminate].
    inversion H; subst. destruct (inv_get _ _ _ _ _ _ I Vy) as (t & T & G & _). rewrite T.
    unfold copy_assign. rewrite (proj2 (Nat.eqb_neq x y) E).
    pose proof (proj1 G) as Eal. rewrite Eal.
    pose proof (inv_empty sso V W x src I) as I'.
    assert (effect sso (blocks W) (empty src) (base_assign sso (blocks W) (empty src) t) w src).
    { eapply (base_assign_ok sso _ _ [] src); eauto. repeat split; cbn; auto; lia. }
    destruct (inv_effect sso _ (set_str W x (empty src)) x (empty src) w src _ I' ltac:(cbn; auto) H0) as (W' & E1 & E2).
    exists W'. split; auto. eapply inv_ext; [|exact E2]. intros z. unfold vset. destruct (z =? x); auto.
  - destruct (x =? y) eqn:E; [discriminate|]. destruct (V y) as [[w src]|] eqn:Vy; [|discriminate].
    inversion H; subst. destruct (inv_get _ _ _ _ _ _ I Vy) as (t & T & G & _). rewrite T. rewrite (load_ok _ _ _ _ _ G). cbn [obind].
    eapply inv_effect with (s := empty 0); eauto. apply construct_ok.
  - destruct (x =? y) eqn:E; [discriminate|]. apply Nat.eqb_neq in E. destruct (V y) as [[w src]|] eqn:Vy; [|discriminate].
    inversion H; subst. destruct (inv_get _ _ _ _ _ _ I Vy) as (t & T & G & _). rewrite T.
    pose proof (inv_empty sso V W x a I) as I'.
    destruct (move_ok sso _ _ x y (empty a) t [] a w src I') as (W' & E1 & E2).
    { unfold vset. now rewrite Nat.eqb_refl. }
    { unfold vset. now rewrite (proj2 (Nat.eqb_neq y x)) by congruence. }
    { cbn. now rewrite Nat.eqb_refl. }
    { cbn. now rewrite (proj2 (Nat.eqb_neq y x)) by congruence. }
    exists W'. split; auto. eapply inv_ext; [|exact E2]. intros z. unfold vset.
    destruct (a =? src); destruct (z =? x) eqn:Z; auto.
  - destruct (V x) as [[old own]|] eqn:Vx; [|discriminate]. destruct (V y) as [[w src]|] eqn:Vy; [|discriminate].
    inversion H; subst. destruct (inv_get _ _ _ _ _ _ I Vx) as (s & S & G & A). rewrite S.
    destruct (inv_get _ _ _ _ _ _ I Vy) as (t & T & Gt & _). rewrite T. unfold copy_assign.
    destruct (x =? y) eqn:E.
    + apply Nat.eqb_eq in E. subst. exists W. split; auto. eapply inv_ext; [|exact I]. intros z. unfold vset.
      destruct (z =? y) eqn:Z; auto. apply Nat.eqb_eq in Z. subst. auto.
    + apply Nat.eqb_neq in E. eapply inv_effect; eauto. eapply base_assign_ok; eauto. intros id Us Ut. eapply (A y t id); eauto. congruence.
  - destruct (V x) as [[old own]|] eqn:Vx; [|discriminate]. destruct (V y) as [[w src]|] eqn:Vy; [|discriminate].
    inversion H; subst. destruct (inv_get _ _ _ _ _ _ I Vx) as (s & S & G & A). rewrite S.
    destruct (inv_get _ _ _ _ _ _ I Vy) as (t & T & Gt & _). rewrite T. eapply move_ok; eauto.
  - destruct (V x) as [[old a]|] eqn:Vx; [|discriminate]. inversion H; subst.
    destruct (inv_get _ _ _ _ _ _ I Vx) as (s & S & G & A). rewrite S. eapply inv_effect; eauto. eapply assign_ok; eauto.
  - destruct (V x) as [[old a]|] eqn:Vx; [|discriminate]. inversion H; subst.
    destruct (inv_get _ _ _ _ _ _ I Vx) as (s & S & G & A). rewrite S. eapply inv_effect; eauto. eapply append_ok; eauto.
  - destruct (V x) as [[old a]|] eqn:Vx; [|discriminate]. inversion H; subst.
    destruct (inv_get _ _ _ _ _ _ I Vx) as (s & S & G & A). rewrite S. eapply inv_effect; eauto. eapply clear_ok; eauto.
  - inversion H; subst. eexists. split; [reflexivity|]. destruct I as [I1 I2]. split; cbn [blocks strs].
    + intros x w b Hx. destruct (V x) as [[v c]|] eqn:Vx; [|discriminate]. destruct (c =? a) eqn:C; [discriminate|]. inversion Hx; subst.
      destruct (I1 x w b Vx) as (s & S & (G1 & G2 & G3 & G4)). exists s. split; auto. repeat split; auto.
      destruct (s_place s); auto. destruct G4 as (k & Hk & Hl & Ha & Hb). exists k. split; auto.
      rewrite (map_nth_error _ _ _ Hk). rewrite Ha, C. reflexivity.
    + intros x y s t id Hx Hy. apply I2; intros Q; [apply Hx | apply Hy]; rewrite Q; reflexivity.
  - destruct (V x) as [[w a]|] eqn:Vx; [|discriminate]. inversion H; subst.
    destruct (inv_get _ _ _ _ _ _ I Vx) as (s & S & G & A). rewrite S. rewrite (load_ok _ _ _ _ _ G). cbn. eauto.
  - destruct (V x) as [[w a]|] eqn:Vx; [|discriminate]. inversion H; subst.
    destruct (inv_get _ _ _ _ _ _ I Vx) as (s & S & G & A). rewrite S. destruct G as (_ & -> & _). cbn. eauto.
  - destruct (V x) as [[w a]|] eqn:Vx; [|discriminate]. inversion H; subst.
    destruct (inv_get _ _ _ _ _ _ I Vx) as (s & S & G & A). rewrite S. destruct G as (-> & _). cbn. eauto.
Qed.

Lemma run_from_ok : forall sso ops V W l, inv sso V W -> vrun follows V ops = Some l -> run_from sso W ops = Ret l.
Proof.
  induction ops as [|o ops IH]; intros V W l I H; cbn in *; [congruence|].
  destruct (vstep follows V o) as [[V' l1]|] eqn:E; [|discriminate].
  destruct (vrun follows V' ops) as [l2|] eqn:E2; [|discriminate]. inversion H; subst.
  destruct (step_ok _ _ _ _ _ _ I E) as (W' & -> & I'). cbn [obind]. rewrite (IH _ _ _ I' E2). reflexivity.
Qed.

Lemma run_follows : forall sso ops l, meaning follows ops = Some l -> run sso ops = Ret l.
Proof.
  intros. eapply run_from_ok; eauto. split; cbn; intros; congruence.
Qed.

(** Programs that stay within arenas. *)
Lemma vstep_one : forall V o r, vstep one_arena V o = Some r -> vstep stays V o = Some r /\ vstep follows V o = Some r.
Proof.
  intros V o r. unfold one_arena, stays, follows. destruct o; cbn; auto;
  repeat match goal with
         | [ |- context [match V ?y with _ => _ end] ] => destruct (V y) as [[? ?]|]
         | [ |- context [if ?x =? ?y then None else _] ] => destruct (x =? y)
         end; auto; try discriminate.
  all: match goal with
       | [ |- context [if ?a =? ?b then Some ?a else None] ] => destruct (a =? b) eqn:E; [apply Nat.eqb_eq in E; subst|discriminate]
       end; auto.
Qed.
Lemma vrun_one : forall ops V l, vrun one_arena V ops = Some l -> vrun stays V ops = Some l /\ vrun follows V ops = Some l.
Proof.
  induction ops as [|o ops IH]; intros V l H; cbn in *; auto.
  destruct (vstep one_arena V o) as [[V' l1]|] eqn:E; [|discriminate].
  destruct (vstep_one _ _ _ E) as [-> ->].
  destruct (vrun one_arena V' ops) as [l2|] eqn:E2; [|discriminate]. destruct (IH _ _ E2) as [-> ->]. auto.
Qed.
Lemma run_one_arena : forall sso ops l, meaning one_arena ops = Some l -> meaning stays ops = Some l /\ run sso ops = Ret l.
Proof. intros sso ops l H. destruct (vrun_one _ _ _ H). split; auto. apply run_follows; auto. Qed.

(** The other programs. *)
Definition long (sso : nat) : text := repeat 97 (S sso).
Definition moved (sso : nat) : list op := [Make 0 0 (long sso); MoveInto 1 0 1; Reset 0; Read 1].
Definition assigned (sso : nat) : list op := [Make 0 0 (long sso); Make 1 1 (long sso); Assign 1 0; Reset 0; Read 1].

Lemma long_leb : forall sso, (length (long sso) <=? sso) = false.
Proof. intros. apply Nat.leb_gt. unfold long. rewrite repeat_length. lia. Qed.
Lemma long_length : forall sso, length (long sso) = S sso.
Proof. intros. apply repeat_length. Qed.

Lemma moved_meaning : forall sso, meaning stays (moved sso) = Some [SawText (long sso)].
Proof. reflexivity. Qed.
Lemma assigned_meaning : forall sso, meaning stays (assigned sso) = Some [SawText (long sso)].
Proof. reflexivity. Qed.

(** A long string whose arena was reset. *)
Lemma dead_from : forall sso ops x V W r, inv sso V W -> vrun follows V (ops ++ [Read x; ArenaOf x]) = Some r ->
  exists r0 w a, r = r0 ++ [SawText w; SawArena a] /\
    (sso < length w -> run_from sso W (ops ++ [Reset a; Read x]) = UB).
Proof.
  induction ops as [|o ops IH]; intros x V W r I H.
  - cbn in H. destruct (V x) as [[w a]|] eqn:Vx; [|discriminate]. rewrite Vx in H. inversion H; subst. exists [], w, a. split; auto.
    intros L. cbn. destruct (inv_get _ _ _ _ _ _ I Vx) as (s & S & (G1 & G2 & G3 & G4) & _). unfold with_str. cbn [strs blocks].
    rewrite S. unfold load. destruct (s_place s); cbn in G3; [lia|]. destruct G4 as (b & Hb & _ & Ha & _).
    rewrite (map_nth_error _ _ _ Hb). rewrite Ha, Nat.eqb_refl. reflexivity.
  - cbn in H. destruct (vstep follows V o) as [[V' l1]|] eqn:E; [|discriminate].
    destruct (vrun follows V' (ops ++ [Read x; ArenaOf x])) as [l2|] eqn:E2; [|discriminate]. inversion H; subst.
    destruct (step_ok _ _ _ _ _ _ I E) as (W' & E3 & I').
    destruct (IH _ _ _ _ I' E2) as (r0 & w & a & -> & K). exists (l1 ++ r0), w, a. rewrite app_assoc. split; auto.
    intros L. cbn. rewrite E3. cbn [obind]. rewrite (K L). reflexivity.
Qed.

Lemma run_dead : forall sso ops x l w a, meaning follows (ops ++ [Read x; ArenaOf x]) = Some (l ++ [SawText w; SawArena a]) ->
  sso < length w -> run sso (ops ++ [Reset a; Read x]) = UB.
Proof.
  intros sso ops x l w a H L. 
  destruct (dead_from sso ops x (fun _ => None) (mk_world [] (fun _ => None)) _ ltac:(split; cbn; intros; congruence) H) as (r0 & w' & a' & E & K).
  change [SawText w; SawArena a] with ([SawText w] ++ [SawArena a]) in E.
  change [SawText w'; SawArena a'] with ([SawText w'] ++ [SawArena a']) in E.
  rewrite !app_assoc in E. apply app_inj_tail in E. destruct E as [E E1]. apply app_inj_tail in E. destruct E as [_ E2].
  inversion E1; inversion E2; subst. auto.
Qed.

Lemma moved_ub : forall sso, run sso (moved sso) = UB.
Proof.
  intros sso. change (moved sso) with ([Make 0 0 (long sso); MoveInto 1 0 1] ++ [Reset 0; Read 1]).
  eapply (run_dead sso _ _ [] (long sso)); [reflexivity|]. unfold long. rewrite repeat_length. lia.
Qed.
Lemma assigned_ub : forall sso, run sso (assigned sso) = UB.
Proof.
  intros sso. change (assigned sso) with ([Make 0 0 (long sso); Make 1 1 (long sso); Assign 1 0] ++ [Reset 0; Read 1]).
  eapply (run_dead sso _ _ [] (long sso)); [reflexivity|]. unfold long. rewrite repeat_length. lia.
Qed.
Lemma move_refuted : forall sso, exists ops l,
  (forall o, In o ops -> match o with Assign _ _ | MoveAssign _ _ => False | _ => True end) /\
  meaning stays ops = Some l /\ run sso ops = UB.
Proof.
  intros sso. exists (moved sso), [SawText (long sso)]. split; [|split; [reflexivity|apply moved_ub]].
  intros o [<-|[<-|[<-|[<-|[]]]]]; exact I.
Qed.
Lemma assign_refuted : forall sso, exists ops l,
  (forall o, In o ops -> match o with MoveInto _ _ _ => False | _ => True end) /\
  meaning stays ops = Some l /\ run sso ops = UB.
Proof.
  intros sso. exists (assigned sso), [SawText (long sso)]. split; [|split; [reflexivity|apply assigned_ub]].
  intros o [<-|[<-|[<-|[<-|[<-|[]]]]]]; exact I.
Qed.

(** Examples: two arenas, short and long texts, moves within an arena, copies between arenas. *)
Definition lit (n : nat) : text := seq 65 n.
Definition program : list op :=
  [ Make 0 0 (lit 20); Make 1 0 (lit 3); CopyTo 2 0; Append 2 (lit 30); MoveAssign 1 2; CopyInto 3 1 1;
    Clear 2; AssignText 2 (lit 40); Assign 0 0; Reset 0; Append 3 (lit 1); Read 3; Size 3; ArenaOf 3 ].
