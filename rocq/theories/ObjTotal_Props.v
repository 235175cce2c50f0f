(** C90, continued: what becomes of the chains that are not accepted. *)
From Coq Require Import Ascii String List Bool Arith ZArith Lia.
Import ListNotations.
From Verif Require Import Base Lexer_Model DType_Spec DType_Model DynObject_Model DynObject_Spec Function_Model
  Names_Spec Names_Model Members_Spec Members_Model Access_Spec Access_Model AccessTotal_Spec ObjField_Spec ObjField_Model ObjField_Proofs ObjTotal_Proofs.
Local Open Scope Z_scope.

(** Whatever the chain, the schema of its variable and the functions that are registered for tables: it has a value or it
    is refused with an error. Undefined behaviour comes only from the functions, the conversions and the arguments. *)
Theorem C90_never_undefined :
  forall E arg_ty (arg_value : E -> mem -> outcome (dtype * Z)) var text_word conv ext json F os,
  Forall (ordinary plain) os ->
  (forall b, d_name (json b) = json_name b) -> (forall b, d_return (json b) = get_dtype (CPtr (CBase 20))) ->
  (forall e m d w, arg_value e m = Ret (d, w) -> sized d) -> (forall x d w, var x = Some (d, w) -> sized d) ->
  (forall b, Forall sized (d_args (json b))) ->
  (forall t n b ret args f, In (OMethod t n b ret args f) os -> Forall (supported 2047) args) ->
  (forall e m, defined (arg_value e m)) -> (forall d p w m, defined (conv d p w m)) -> (forall f ws m, defined (ext f ws m)) ->
  (forall e d, arg_ty e = Some d -> exists u, plain u /\ d = get_dtype u) ->
  forall t sch w l m, plain t -> made sch ->
  defined (run_schain arg_ty arg_value var text_word conv ext json F (fst (offer_members os [])) (get_dtype t) sch w l m).
Proof. exact @schain_defined. Qed.
Print Assumptions C90_never_undefined.

(** With the limits of C90_chain_partial: a chain is refused exactly if some step of it cannot be taken, because the schema
    does not have the field, there is no function for the column or the method, or a function fails. *)
Theorem C90_error_iff_partial :
  forall E arg_ty (arg_value : E -> mem -> outcome (dtype * Z)) var text_word conv ext json F os,
  Forall (ordinary plain) os ->
  (forall b, d_name (json b) = json_name b) -> (forall b, d_return (json b) = get_dtype (CPtr (CBase 20))) ->
  (forall e m d w, arg_value e m = Ret (d, w) -> sized d) -> (forall x d w, var x = Some (d, w) -> sized d) ->
  (forall b, Forall sized (d_args (json b))) ->
  (forall t n b ret args f, In (OMethod t n b ret args f) os -> Forall (supported 2047) args) ->
  (forall d p w m, dtype_eqb d p = Ret true -> conv d p w m = Ret w) ->
  methods_apart (fun t => member_name F (get_dtype t)) json_name os ->
  (forall e m v, arg_value e m = Ret v -> arg_ty e <> None) ->
  gives_columns (fun t => member_name F (get_dtype t)) os ->
  (forall e m, defined (arg_value e m)) -> (forall d p w m, defined (conv d p w m)) -> (forall f ws m, defined (ext f ws m)) ->
  (forall e d, arg_ty e = Some d -> exists u, plain u /\ d = get_dtype u) ->
  forall t sch w l m, plain t -> made sch -> brackets_first l -> sorts_by_columns arg_ty l ->
  (run_schain arg_ty arg_value var text_word conv ext json F (fst (offer_members os [])) (get_dtype t) sch w l m = Err <->
   forall o, ~ ssteps os arg_ty arg_value (fun k _ => key_means var text_word k) conv ext (fun b => d_args (json b)) (fun b => d_func (json b)) (t, w, m, sch) l o).
Proof. exact @schain_error_iff. Qed.
Print Assumptions C90_error_iff_partial.

(** ** Examples *)
(** The hypotheses that C90_ex_chain and C90_ex_accepted do not show; t.filter(b).topk(c, 5, on).score is accepted,
    t.filter(b).none and t.topk(n, 5, on), with a pointer to a struct (30) for n, are refused. *)
Definition arg_ty' (e : Z) : option dtype := if e =? 30 then Some (get_dtype (CPtr (CBase 30))) else arg_ty e.
Definition arg_value' (e : Z) (m : mem) : outcome (dtype * Z) := match arg_ty' e with Some d => Ret (d, e) | None => Err end.
Example C90_ex_total :
  (forall e m, defined (arg_value' e m)) /\ (forall d p w m, defined (conv d p w m)) /\ (forall f ws m, defined (ext f ws m)) /\
  (forall e d, arg_ty' e = Some d -> exists u, plain u /\ d = get_dtype u) /\
  (forall e m d w, arg_value' e m = Ret (d, w) -> sized d) /\
  let run l := run_schain arg_ty' arg_value' (fun _ => None) (fun _ => 0) conv ext json no_names (fst (offer_members other_methods [])) (get_dtype (CPtr dyn)) (Some table_schema) 4096 l (fun _ => 0) in
  (exists x, run [ACall (lit "filter") [0]; ACall (lit "topk") [1; 8; 3]; AField (lit "score")] = Ret x) /\
  run [ACall (lit "filter") [0]; AField (lit "none")] = Err /\ run [ACall (lit "topk") [30; 8; 3]] = Err.
Proof.
  assert (forall e d, arg_ty' e = Some d -> exists u, plain u /\ d = get_dtype u) as T.
  { intros e d. unfold arg_ty', arg_ty. pose proof (Z.mod_pos_bound (e - 1) 2046 ltac:(lia)).
    destruct (e =? 30); [intros [= <-]; exists (CPtr (CBase 30)); split; [split; [cbn; lia|reflexivity]|reflexivity]|].
    destruct (e =? 0); [|destruct (e =? 1)]; intros [= <-];
      [exists (vector_of 3)|exists (vector_of 13)|exists (CBase (1 + (e - 1) mod 2046))]; (split; [|reflexivity]); (split; [|reflexivity]); unfold vector_of; cbn [supported]; lia. }
  split; [intros e m; unfold arg_value'; destruct (arg_ty' e); exact I|]. split; [intros; exact I|]. split; [intros; exact I|]. split; [exact T|].
  split. { intros e m d w H. unfold arg_value' in H. destruct (arg_ty' e) as [d'|] eqn:A; [|discriminate H]. injection H as <- _.
    destruct (T _ _ A) as (u & [U _] & ->). now exists u. }
  cbv zeta. split; [eexists; vm_compute; reflexivity|]. split; vm_compute; reflexivity.
Qed.
