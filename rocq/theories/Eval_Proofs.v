From Coq Require Import List Bool NArith Lia.
Import ListNotations.
From Verif Require Import Base LRU_Model LRU_Spec LRU_Proofs Eval_Model Eval_Spec.

Section Engine.
Context {source arg sig code : Type}.
Variable source_dec : forall a b : source, {a = b} + {a <> b}.
Variable sig_dec : forall a b : sig, {a = b} + {a <> b}.
Variable w : world source arg sig code.
Notation cache := (@cache source sig code).

Lemma first_match_in (fs : list (sig * code)) g f : first_match sig_dec fs g = Some f -> In (g, f) fs.
Proof.
  induction fs as [|[g' c] fs IH]; cbn [first_match]; [discriminate|].
  destruct (sig_dec g' g) as [->|]; [intros [= ->]; now left|right; auto].
Qed.
Lemma first_match_none (fs : list (sig * code)) g : first_match sig_dec fs g = None -> forall f, ~ In (g, f) fs.
Proof.
  induction fs as [|[g' c] fs IH]; cbn [first_match]; [intros _ f []|].
  destruct (sig_dec g' g) as [->|N]; [discriminate|]. intros H f [E|I]; [congruence|]. exact (IH H f I).
Qed.
Lemma with_sig_in (fs : list (sig * code)) g f : In f (with_sig sig_dec fs g) <-> In (g, f) fs.
Proof.
  unfold with_sig. rewrite in_map_iff. split.
  - intros ([g' f'] & E & I). cbn in E. subst f'. apply filter_In in I. destruct I as [I T]. cbn in T.
    destruct (sig_dec g' g); [now subst|discriminate].
  - intros I. exists (g, f). split; [reflexivity|]. apply filter_In. split; [exact I|]. cbn.
    destruct (sig_dec g g); congruence.
Qed.
Lemma match_fresh s g (fs : list (sig * code)) o : compile_functions w s = Some fs ->
  (forall f, o = Some f -> In (g, f) fs) -> (o = None -> forall f, ~ In (g, f) fs) ->
  fresh sig_dec w (C_function s g) (match o with Some f => Called f | None => Status end).
Proof.
  intros E S N. cbn [fresh]. rewrite E. destruct (with_sig sig_dec fs g) as [|c l] eqn:W.
  - destruct o as [f|]; [|reflexivity]. specialize (S f eq_refl). apply with_sig_in in S. rewrite W in S. destruct S.
  - destruct o as [f|].
    + exists f. split; [|reflexivity]. rewrite <- W. apply with_sig_in. auto.
    + exfalso. apply (N eq_refl c). apply with_sig_in. rewrite W. now left.
Qed.
Lemma last_match_in (fs : list (sig * code)) g f : last_match sig_dec fs g = Some f -> In (g, f) fs.
Proof. intros H. apply in_rev. now apply first_match_in. Qed.
Lemma last_match_none (fs : list (sig * code)) g : last_match sig_dec fs g = None -> forall f, ~ In (g, f) fs.
Proof. intros H f I. apply in_rev in I. exact (first_match_none _ _ H f I). Qed.

Variable plan : source -> @use arg.

(** A cached value comes from a fresh compilation of the one use of its source. *)
Definition item_ok (s : source) (fs : list (sig * code)) : Prop :=
  match plan s with
  | U_functions => compile_functions w s = Some fs
  | U_expression names => forall g f, In (g, f) fs -> compile_expression w s names g = Some f
  end.
Definition cache_ok (c : cache) : Prop :=
  exists l ts, R c (10000%N, l) ts /\ Forall (fun p => item_ok (fst p) (snd p)) l.

Lemma lookup_forall (P : source * list (sig * code) -> Prop) l s v :
  Forall P l -> lookup source_dec l s = Some v -> P (s, v).
Proof.
  induction 1 as [|[s' v'] l H F IH]; cbn [lookup]; [discriminate|].
  destruct (source_dec s s') as [->|]; [intros [= ->]; exact H|exact IH].
Qed.
Lemma remove_forall (P : source * list (sig * code) -> Prop) l s : Forall P l -> Forall P (remove source_dec l s).
Proof.
  induction 1 as [|[s' v'] l H F IH]; cbn [remove]; [constructor|]. destruct (source_dec s s'); [exact IH|now constructor].
Qed.
Lemma removelast_forall {A} (P : A -> Prop) l : Forall P l -> Forall P (removelast l).
Proof. induction 1 as [|x l H F IH]; [constructor|]. cbn [removelast]. destruct l; [constructor|now constructor]. Qed.

Lemma get_ok c s : cache_ok c -> exists c' r, lru_get source_dec c s = Ret (c', r) /\ cache_ok c' /\
  match r with Some v => item_ok s v | None => True end.
Proof.
  intros (l & ts & H & F). destruct (R_get source_dec c _ l ts s H) as (c' & ts' & E & H'). rewrite E. unfold spec_get in *.
  destruct (lookup source_dec l s) as [v|] eqn:L; cbn [fst snd] in *.
  - pose proof (lookup_forall _ _ _ _ F L) as I. exists c', (Some v). split; [reflexivity|]. split; [|exact I].
    exists ((s, v) :: remove source_dec l s), ts'. split; [exact H'|]. constructor; [exact I|]. now apply remove_forall.
  - exists c', None. split; [reflexivity|]. split; [|exact Logic.I]. exists l, ts'. auto.
Qed.
Lemma insert_ok c s v : cache_ok c -> item_ok s v -> exists c', lru_insert source_dec c s v = Ret c' /\ cache_ok c'.
Proof.
  intros (l & ts & H & F) I. destruct (R_insert source_dec c _ l ts s v H) as (c' & ts' & E & H'); [lia|].
  exists c'. split; [exact E|]. exists (spec_insert source_dec 10000 l s v), ts'. split; [exact H'|].
  unfold spec_insert. destruct (lookup source_dec l s); [exact F|]. constructor; [exact I|].
  destruct (N.leb _ _); [|exact F]. now apply removelast_forall.
Qed.
Lemma new_cache_ok : cache_ok new_cache.
Proof. exists [], []. split; [apply R_new|constructor]. Qed.

Definition engine_ok (t : engine source arg sig code) : Prop :=
  cache_ok (the_cache t) /\ Forall (conforms plan) (waiting t) /\ Forall (fun p => fresh sig_dec w (fst p) (snd p)) (answers t).

Lemma begin_ok k c c' a : cache_ok c -> conforms plan k -> begin source_dec sig_dec w k c = Ret (c', a) ->
  cache_ok c' /\ match a with Some a => fresh sig_dec w k a | None => True end.
Proof.
  intros C K E. destruct k as [s g|s names g]; cbn [begin conforms] in *;
    destruct (get_ok c s C) as (c1 & r & G & C1 & I); rewrite G in E; cbn [obind] in E; destruct r as [item|].
  - unfold item_ok in I. rewrite K in I. pose proof (match_fresh s g item (first_match sig_dec item g) I
      (first_match_in item g) (first_match_none item g)) as Fr.
    destruct (first_match sig_dec item g) as [f|].
    + destruct (reenters w f); [discriminate|]. injection E as <- <-. auto.
    + injection E as <- <-. auto.
  - injection E as <- <-. auto.
  - unfold item_ok in I. rewrite K in I. destruct (first_match sig_dec item g) as [f|] eqn:M.
    + destruct (reenters w f); [discriminate|]. injection E as <- <-. split; [exact C1|].
      apply first_match_in in M. cbn [fresh]. now rewrite (I _ _ M).
    + injection E as <- <-. auto.
  - injection E as <- <-. auto.
Qed.

Lemma finish_ok k c c' a : cache_ok c -> conforms plan k -> finish source_dec sig_dec w k c = Ret (c', a) ->
  cache_ok c' /\ fresh sig_dec w k a.
Proof.
  intros C K E. destruct k as [s g|s names g]; cbn [finish conforms] in *.
  - destruct (compile_functions w s) as [fs|] eqn:Cs.
    + destruct (insert_ok c s fs C) as (c1 & G & C1); [unfold item_ok; now rewrite K|].
      rewrite G in E. cbn [obind] in E. pose proof (match_fresh s g fs (last_match sig_dec fs g) Cs
        (last_match_in fs g) (last_match_none fs g)) as Fr.
      destruct (last_match sig_dec fs g) as [f|].
      * destruct (intact w); [|discriminate]. injection E as <- <-. auto.
      * injection E as <- <-. auto.
    + injection E as <- <-. split; [exact C|]. cbn [fresh]. now rewrite Cs.
  - destruct (compile_expression w s names g) as [f|] eqn:Ce.
    + destruct (get_ok c s C) as (c1 & r & G & C1 & I). rewrite G in E. cbn [obind] in E.
      assert (Fr : fresh sig_dec w (C_expression s names g) (Called f)) by (cbn [fresh]; now rewrite Ce).
      destruct r as [item|].
      * cbn [obind] in E. injection E as <- <-. auto.
      * destruct (insert_ok c1 s [(g, f)] C1) as (c2 & G2 & C2).
        { unfold item_ok. rewrite K. intros g' f' [[= <- <-]|[]]. exact Ce. }
        rewrite G2 in E. cbn [obind] in E. injection E as <- <-. auto.
    + injection E as <- <-. split; [exact C|]. cbn [fresh]. now rewrite Ce.
Qed.

Lemma drop_nth_forall {A} (P : A -> Prop) : forall n l, Forall P l -> Forall P (drop_nth n l).
Proof.
  induction n as [|n IH]; intros l F; destruct F as [|x l H F]; cbn [drop_nth]; try constructor; auto.
Qed.

Lemma step_ok e t t' : engine_ok t -> (forall k, begun e = Some k -> conforms plan k) ->
  step source_dec sig_dec w e t = Ret t' -> engine_ok t'.
Proof.
  intros (C & W & A) K E. destruct e as [k|n]; cbn [step] in E.
  - destruct (begin source_dec sig_dec w k (the_cache t)) as [[c a]| | |] eqn:B; try discriminate. cbn [obind] in E.
    destruct (begin_ok _ _ _ _ C (K k eq_refl) B) as [C' Fr].
    destruct a as [a|]; injection E as <-; (split; [|split]); cbn; auto.
  - destruct (nth_error (waiting t) n) as [k|] eqn:N; [|injection E as <-; now split].
    destruct (finish source_dec sig_dec w k (the_cache t)) as [[c a]| | |] eqn:B; try discriminate. cbn [obind] in E.
    assert (conforms plan k) as Kk by (apply nth_error_In in N; now apply (proj1 (Forall_forall _ _) W)).
    destruct (finish_ok _ _ _ _ C Kk B) as [C' Fr]. injection E as <-.
    split; [|split]; cbn; auto. now apply drop_nth_forall.
Qed.

Lemma run_ok : forall l t t', engine_ok t -> (forall e k, In e l -> begun e = Some k -> conforms plan k) ->
  run source_dec sig_dec w l t = Ret t' -> engine_ok t'.
Proof.
  induction l as [|e l IH]; intros t t' O K E; cbn [run] in E; [now injection E as <-|].
  destruct (step source_dec sig_dec w e t) as [t1| | |] eqn:S; try discriminate. cbn [obind] in E.
  apply (IH t1 t'); [|intros; eapply K; eauto; now right|exact E].
  apply (step_ok e t t1 O); [|exact S]. intros k B. exact (K e k (or_introl eq_refl) B).
Qed.
Lemma new_ok : engine_ok new_engine.
Proof. split; [apply new_cache_ok|split; constructor]. Qed.

Theorem transparent l t : (forall e k, In e l -> begun e = Some k -> conforms plan k) ->
  run source_dec sig_dec w l new_engine = Ret t ->
  forall k a, In (k, a) (answers t) -> fresh sig_dec w k a.
Proof.
  intros K E k a I. destruct (run_ok l _ _ new_ok K E) as (_ & _ & A).
  exact (proj1 (Forall_forall _ _) A (k, a) I).
Qed.
End Engine.

(** Calls return: nothing hangs or is undefined when no function reenters and freed objects can be read. *)
Section Total.
Context {source arg sig code : Type}.
Variable source_dec : forall a b : source, {a = b} + {a <> b}.
Variable sig_dec : forall a b : sig, {a = b} + {a <> b}.
Variable w : world source arg sig code.
Definition valid (c : @cache source sig code) : Prop := exists l ts, R c (10000%N, l) ts.
Lemma get_valid c s : valid c -> exists c' r, lru_get source_dec c s = Ret (c', r) /\ valid c'.
Proof. intros (l & ts & H). destruct (R_get source_dec c _ l ts s H) as (c' & ts' & E & H'). rewrite E. eexists. eexists. split; [reflexivity|]. now exists (fst (spec_get source_dec l s)), ts'. Qed.
Lemma insert_valid c s v : valid c -> exists c', lru_insert source_dec c s v = Ret c' /\ valid c'.
Proof. intros (l & ts & H). destruct (R_insert source_dec c _ l ts s v H) as (c' & ts' & E & H'); [lia|]. exists c'. split; [exact E|]. now exists (spec_insert source_dec 10000 l s v), ts'. Qed.

(** The safe calls: expressions always are when no function reenters. *)
Definition safe_call (k : @call source arg sig) : Prop :=
  match k with
  | C_function s g => intact w = true \/
      match compile_functions w s with Some fs => forall f, ~ In (g, f) fs | None => True end
  | C_expression _ _ _ => True
  end.

Lemma run_total : (forall c, reenters w c = false) -> forall l t, valid (the_cache t) -> Forall safe_call (waiting t) ->
  (forall e k, In e l -> begun e = Some k -> safe_call k) ->
  exists t', run source_dec sig_dec w l t = Ret t' /\ valid (the_cache t').
Proof.
  intros Re. induction l as [|e l IH]; intros t V W K; cbn [run]; [eauto|].
  assert (exists t1, step source_dec sig_dec w e t = Ret t1 /\ valid (the_cache t1) /\ Forall safe_call (waiting t1)) as (t1 & -> & V1 & W1).
  { destruct e as [k|n]; cbn [step].
    - pose proof (K _ k (or_introl eq_refl) eq_refl) as Sk.
      destruct k as [s g|s names g]; cbn [begin]; destruct (get_valid (the_cache t) s V) as (c1 & r & -> & V1); cbn [obind];
        destruct r as [item|]; try destruct (first_match sig_dec item g) as [f|]; rewrite ?Re; cbn [obind];
        eexists; (split; [reflexivity|]); cbn; auto.
    - destruct (nth_error (waiting t) n) as [k|] eqn:N; [|eexists; split; [reflexivity|]; auto].
      assert (Sk : safe_call k) by (apply nth_error_In in N; now apply (proj1 (Forall_forall _ _) W)).
      pose proof (drop_nth_forall safe_call n _ W) as W'.
      destruct k as [s g|s names g]; cbn [finish safe_call] in *.
      + destruct (compile_functions w s) as [fs|] eqn:C.
        * destruct (insert_valid (the_cache t) s fs V) as (c1 & -> & V1). cbn [obind].
          destruct (last_match sig_dec fs g) as [f|] eqn:L; cbn [obind].
          -- destruct Sk as [->|Sk]; [|exfalso; exact (Sk f (last_match_in sig_dec _ _ _ L))].
             cbn [obind]. eexists. split; [reflexivity|]. auto.
          -- eexists. split; [reflexivity|]. auto.
        * cbn [obind]. eexists. split; [reflexivity|]. auto.
      + destruct (compile_expression w s names g) as [f|] eqn:C; cbn [obind]; [|eexists; split; [reflexivity|]; auto].
        destruct (get_valid (the_cache t) s V) as (c1 & r & -> & V1). cbn [obind]. destruct r as [item|]; cbn [obind].
        * eexists. split; [reflexivity|]. auto.
        * destruct (insert_valid c1 s [(g, f)] V1) as (c2 & -> & V2). cbn [obind]. eexists. split; [reflexivity|]. auto. }
  cbn [obind]. apply IH; auto. intros e' k I. apply K. now right.
Qed.
Lemma new_valid : valid (@new_cache source sig code).
Proof. exists [], []. apply R_new. Qed.

(** After the two halves of an expression call that compiles, the cache holds the source. *)
Lemma cached_lookup : forall c s v c1, valid c -> lru_get source_dec c s = Ret (c1, None) ->
  exists c2, lru_insert source_dec c1 s v = Ret c2 /\ valid c2 /\
  exists c3, lru_get source_dec c2 s = Ret (c3, Some v) /\ valid c3.
Proof.
  intros c s v c1 (l & ts & H) G. destruct (R_get source_dec c _ l ts s H) as (c' & ts' & E & H').
  rewrite G in E. injection E as <- E. unfold spec_get in *. destruct (lookup source_dec l s) eqn:L; [discriminate|]. cbn [fst] in H'.
  destruct (R_insert source_dec c1 _ l ts' s v H') as (c2 & ts2 & E2 & H2); [lia|].
  exists c2. split; [exact E2|]. split; [eexists; eexists; exact H2|].
  destruct (R_get source_dec c2 _ _ ts2 s H2) as (c3 & ts3 & E3 & H3).
  exists c3. split; [|eexists; eexists; exact H3].
  rewrite E3. unfold spec_insert, spec_get. rewrite L. cbn [lookup]. destruct (source_dec s s); [reflexivity|contradiction].
Qed.

(** The same text evaluated with other argument descriptions: the function of the first call is run. *)
Theorem other_names s names1 names2 g f1 t c :
  compile_expression w s names1 g = Some f1 -> reenters w f1 = false ->
  valid (the_cache t) -> lru_get source_dec (the_cache t) s = Ret (c, None) -> waiting t = [] ->
  exists t', run source_dec sig_dec w
    [E_begin (C_expression s names1 g); E_finish 0; E_begin (C_expression s names2 g)] t = Ret t' /\
    answers t' = (C_expression s names2 g, Called f1) :: (C_expression s names1 g, Called f1) :: answers t.
Proof.
  intros C Re V G W. cbn [run step begin]. rewrite G. cbn [obind the_cache waiting answers nth_error]. rewrite W. cbn [nth_error finish].
  rewrite C. cbn [obind].
  assert (G1 : lru_get source_dec c s = Ret (c, None)).
  { unfold lru_get in G |- *. destruct (map_find source_dec (m_map (the_cache t)) s) as [[v j]|] eqn:F.
    - destruct (match m_list (the_cache t) with [] => false | (i, _) :: _ => N.eqb i j end); [discriminate|].
      destruct (list_erase _ _); discriminate.
    - injection G as <-. now rewrite F. }
  assert (Vc : valid c) by (destruct (get_valid _ s V) as (c' & r & E & V'); rewrite G in E; now injection E as <- _).
  rewrite G1. cbn [obind]. destruct (cached_lookup c s [(g, f1)] c Vc G1) as (c2 & -> & V2 & c3 & G3 & V3).
  cbn [obind the_cache drop_nth answers begin]. rewrite G3. cbn [obind first_match]. destruct (sig_dec g g); [|contradiction].
  rewrite Re. cbn [obind]. eexists. split; [reflexivity|]. reflexivity.
Qed.

(** A source with several functions of one signature: the first call runs the last of them, the second the first. *)
Theorem two_functions s g fs f1 f2 t c :
  compile_functions w s = Some fs -> first_match sig_dec fs g = Some f1 -> last_match sig_dec fs g = Some f2 ->
  intact w = true -> reenters w f1 = false ->
  valid (the_cache t) -> lru_get source_dec (the_cache t) s = Ret (c, None) -> waiting t = [] ->
  exists t', run source_dec sig_dec w [E_begin (C_function s g); E_finish 0; E_begin (C_function s g)] t = Ret t' /\
    answers t' = (C_function s g, Called f1) :: (C_function s g, Called f2) :: answers t.
Proof.
  intros C F1 F2 In Re V G W. cbn [run step begin]. rewrite G. cbn [obind the_cache waiting answers nth_error]. rewrite W. cbn [nth_error finish].
  rewrite C. cbn [obind].
  destruct (cached_lookup (the_cache t) s fs c V G) as (c2 & -> & V2 & c3 & G3 & V3).
  cbn [obind]. rewrite F2, In. cbn [obind the_cache drop_nth answers begin]. rewrite G3. cbn [obind]. rewrite F1, Re. cbn [obind].
  eexists. split; [reflexivity|]. reflexivity.
Qed.

(** The first evaluation of a source with a matching function uses the freed object. *)
Theorem first_evaluation s g fs f (t : engine source arg sig code) :
  compile_functions w s = Some fs -> In (g, f) fs -> intact w = false -> valid (the_cache t) ->
  finish source_dec sig_dec w (C_function s g) (the_cache t) = UB.
Proof.
  intros C I N V. cbn [finish]. rewrite C. destruct (insert_valid _ s fs V) as (c & -> & _). cbn [obind].
  destruct (last_match sig_dec fs g) as [f'|] eqn:L; [now rewrite N|]. exfalso. exact (last_match_none sig_dec _ _ L f I).
Qed.

(** A function that evaluates something itself: the first evaluation returns, the second never does. *)
Theorem reentrant s names g f t c :
  compile_expression w s names g = Some f -> reenters w f = true ->
  valid (the_cache t) -> lru_get source_dec (the_cache t) s = Ret (c, None) -> waiting t = [] ->
  (exists t', run source_dec sig_dec w [E_begin (C_expression s names g); E_finish 0] t = Ret t' /\
    answers t' = (C_expression s names g, Called f) :: answers t) /\
  run source_dec sig_dec w [E_begin (C_expression s names g); E_finish 0; E_begin (C_expression s names g)] t = Hang.
Proof.
  intros C Re V G W. cbn [run step begin]. rewrite G. cbn [obind the_cache waiting answers nth_error]. rewrite W. cbn [nth_error finish].
  rewrite C. cbn [obind].
  assert (G1 : lru_get source_dec c s = Ret (c, None)).
  { unfold lru_get in G |- *. destruct (map_find source_dec (m_map (the_cache t)) s) as [[v j]|] eqn:F.
    - destruct (match m_list (the_cache t) with [] => false | (i, _) :: _ => N.eqb i j end); [discriminate|].
      destruct (list_erase _ _); discriminate.
    - injection G as <-. now rewrite F. }
  assert (Vc : valid c) by (destruct (get_valid _ s V) as (c' & r & E & V'); rewrite G in E; now injection E as <- _).
  rewrite G1. cbn [obind]. destruct (cached_lookup c s [(g, f)] c Vc G1) as (c2 & -> & V2 & c3 & G3 & V3).
  cbn [obind the_cache drop_nth answers begin]. split; [eexists; split; reflexivity|].
  rewrite G3. cbn [obind first_match]. destruct (sig_dec g g); [|contradiction]. now rewrite Re.
Qed.
End Total.

(** *** Whole histories *)
Section Histories.
Context {source arg sig code : Type}.
Variable source_dec : forall a b : source, {a = b} + {a <> b}.
Variable sig_dec : forall a b : sig, {a = b} + {a <> b}.
Variable w : world source arg sig code.

Lemma run_app l1 : forall l2 (t : engine source arg sig code), run source_dec sig_dec w (l1 ++ l2) t =
  do! t1 <- run source_dec sig_dec w l1 t ; run source_dec sig_dec w l2 t1.
Proof.
  induction l1 as [|e l1 IH]; intros l2 t; cbn [run app obind]; [reflexivity|].
  destruct (step source_dec sig_dec w e t); cbn [obind]; auto.
Qed.
Lemma run_valid : forall l (t t' : engine source arg sig code), valid (the_cache t) ->
  run source_dec sig_dec w l t = Ret t' -> valid (the_cache t').
Proof.
  induction l as [|e l IH]; intros t t' V E; cbn [run] in E; [now injection E as <-|].
  destruct (step source_dec sig_dec w e t) as [t1| | |] eqn:S; try discriminate. cbn [obind] in E.
  apply (IH t1 t'); [|exact E]. clear E IH. destruct e as [k|n]; cbn [step] in S.
  - destruct k as [s g|s names g]; cbn [begin] in S; destruct (get_valid source_dec (the_cache t) s V) as (c1 & r & G & V1);
      rewrite G in S; cbn [obind] in S; destruct r as [item|]; try destruct (first_match sig_dec item g) as [f|];
      try destruct (reenters w f); try discriminate; cbn [obind] in S; injection S as <-; exact V1.
  - destruct (nth_error (waiting t) n) as [k|]; [|injection S as <-; exact V].
    destruct k as [s g|s names g]; cbn [finish] in S.
    + destruct (compile_functions w s) as [fs|]; [|injection S as <-; exact V].
      destruct (insert_valid source_dec (the_cache t) s fs V) as (c1 & G & V1). rewrite G in S. cbn [obind] in S.
      destruct (last_match sig_dec fs g); [destruct (intact w)|]; try discriminate; injection S as <-; exact V1.
    + destruct (compile_expression w s names g) as [f|]; [|injection S as <-; exact V].
      destruct (get_valid source_dec (the_cache t) s V) as (c1 & r & G & V1). rewrite G in S. cbn [obind] in S.
      destruct r as [item|]; cbn [obind] in S; [injection S as <-; exact V1|].
      destruct (insert_valid source_dec c1 s [(g, f)] V1) as (c2 & G2 & V2). rewrite G2 in S. cbn [obind] in S.
      injection S as <-. exact V2.
Qed.

Theorem calls_return l : (forall c, reenters w c = false) ->
  (intact w = true \/ forall s g, ~ In (E_begin (C_function s g)) l) ->
  exists t, run source_dec sig_dec w l new_engine = Ret t.
Proof.
  intros Re H. destruct (run_total source_dec sig_dec w Re l new_engine (new_valid)) as (t & E & _).
  - constructor.
  - intros e k I B. destruct e as [k'|]; [|discriminate]. injection B as ->. destruct k as [s g|s names g]; cbn; [|exact Logic.I].
    destruct H as [H|H]; [now left|]. exfalso. exact (H s g I).
  - now exists t.
Qed.

Variables (l : list (@event source arg sig)) (t : engine source arg sig code) (c : @cache source sig code) (s : source).

Theorem history_other_names names1 names2 g f1 : run source_dec sig_dec w l new_engine = Ret t -> waiting t = [] ->
  lru_get source_dec (the_cache t) s = Ret (c, None) ->
  compile_expression w s names1 g = Some f1 -> reenters w f1 = false ->
  exists t', run source_dec sig_dec w
      (l ++ [E_begin (C_expression s names1 g); E_finish 0; E_begin (C_expression s names2 g)]) new_engine = Ret t' /\
    answers t' = (C_expression s names2 g, Called f1) :: (C_expression s names1 g, Called f1) :: answers t.
Proof.
  intros E W G C Re. rewrite run_app, E. cbn [obind].
  exact (other_names source_dec sig_dec w s names1 names2 g f1 t c C Re (run_valid l new_engine t new_valid E) G W).
Qed.
Theorem history_two_functions g fs f1 f2 : run source_dec sig_dec w l new_engine = Ret t -> waiting t = [] ->
  lru_get source_dec (the_cache t) s = Ret (c, None) ->
  compile_functions w s = Some ((g, f1) :: fs ++ [(g, f2)]) -> intact w = true -> reenters w f1 = false ->
  exists t', run source_dec sig_dec w
      (l ++ [E_begin (C_function s g); E_finish 0; E_begin (C_function s g)]) new_engine = Ret t' /\
    answers t' = (C_function s g, Called f1) :: (C_function s g, Called f2) :: answers t.
Proof.
  intros E W G C In Re. rewrite run_app, E. cbn [obind].
  refine (two_functions source_dec sig_dec w s g _ f1 f2 t c C _ _ In Re (run_valid l new_engine t new_valid E) G W).
  - cbn [first_match]. destruct (sig_dec g g); [reflexivity|contradiction].
  - unfold last_match. cbn [rev]. rewrite rev_app_distr. cbn [rev app first_match]. destruct (sig_dec g g); [reflexivity|contradiction].
Qed.
Theorem history_first_evaluation g fs f : run source_dec sig_dec w l new_engine = Ret t -> waiting t = [] ->
  lru_get source_dec (the_cache t) s = Ret (c, None) ->
  compile_functions w s = Some fs -> In (g, f) fs -> intact w = false ->
  run source_dec sig_dec w (l ++ [E_begin (C_function s g); E_finish 0]) new_engine = UB.
Proof.
  intros E W G C I N. rewrite run_app, E. cbn [obind run step begin]. rewrite G. cbn [obind waiting nth_error the_cache].
  assert (V : valid c).
  { destruct (get_valid source_dec (the_cache t) s (run_valid l new_engine t new_valid E)) as (c' & r & E' & V'). rewrite G in E'. now injection E' as <- _. }
  pose proof (first_evaluation source_dec sig_dec w s g fs f {| the_cache := c; waiting := []; answers := [] |} C I N V) as F.
  cbn [the_cache] in F. rewrite F. reflexivity.
Qed.
Theorem history_reentrant names g f : run source_dec sig_dec w l new_engine = Ret t -> waiting t = [] ->
  lru_get source_dec (the_cache t) s = Ret (c, None) ->
  compile_expression w s names g = Some f -> reenters w f = true ->
  (exists t', run source_dec sig_dec w (l ++ [E_begin (C_expression s names g); E_finish 0]) new_engine = Ret t' /\
    answers t' = (C_expression s names g, Called f) :: answers t) /\
  run source_dec sig_dec w
    (l ++ [E_begin (C_expression s names g); E_finish 0; E_begin (C_expression s names g)]) new_engine = Hang.
Proof.
  intros E W G C Re. rewrite !run_app, E. cbn [obind].
  exact (reentrant source_dec sig_dec w s names g f t c C Re (run_valid l new_engine t new_valid E) G W).
Qed.
End Histories.
