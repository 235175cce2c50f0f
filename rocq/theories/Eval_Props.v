(** C31: the evaluation cache. *)
From Coq Require Import List Bool NArith ZArith.
Import ListNotations.
From Verif Require Import Base LRU_Model Eval_Model Eval_Spec Eval_Proofs.

(** Full statement: every answer is the one of a fresh compilation, after any calls before and around it, from any
    number of threads.  It holds if every source is always used in one way, as functions or as an expression over
    the same arguments; the theorems below say what happens otherwise. *)
Theorem C31_transparent_partial :
  forall (source arg sig code : Type) (source_dec : forall a b : source, {a = b} + {a <> b})
    (sig_dec : forall a b : sig, {a = b} + {a <> b}) (w : world source arg sig code) (plan : source -> @use arg) l t,
  (forall e k, In e l -> begun e = Some k -> conforms plan k) ->
  run source_dec sig_dec w l new_engine = Ret t ->
  forall k a, In (k, a) (answers t) -> fresh sig_dec w k a.
Proof. exact @transparent. Qed.
Print Assumptions C31_transparent_partial.

(** All calls return, if no function evaluates something itself and eval_function finds freed memory intact. *)
Theorem C31_calls_return_partial :
  forall (source arg sig code : Type) (source_dec : forall a b : source, {a = b} + {a <> b})
    (sig_dec : forall a b : sig, {a = b} + {a <> b}) (w : world source arg sig code) l,
  (forall c, reenters w c = false) -> (intact w = true \/ forall s g, ~ In (E_begin (C_function s g)) l) ->
  exists t, run source_dec sig_dec w l new_engine = Ret t.
Proof. exact @calls_return. Qed.
Print Assumptions C31_calls_return_partial.

(** The same text over other arguments: whatever was evaluated before ([t] is the state of the engine; the source is not
    in the cache), the second call runs the function compiled for the arguments of the first. *)
Theorem C31_other_arguments_refuted :
  forall (source arg sig code : Type) (source_dec : forall a b : source, {a = b} + {a <> b})
    (sig_dec : forall a b : sig, {a = b} + {a <> b}) (w : world source arg sig code) l t c s names1 names2 g f1,
  run source_dec sig_dec w l new_engine = Ret t -> waiting t = [] -> lru_get source_dec (the_cache t) s = Ret (c, None) ->
  compile_expression w s names1 g = Some f1 -> reenters w f1 = false ->
  exists t', run source_dec sig_dec w
      (l ++ [E_begin (C_expression s names1 g); E_finish 0; E_begin (C_expression s names2 g)]) new_engine = Ret t' /\
    answers t' = (C_expression s names2 g, Called f1) :: (C_expression s names1 g, Called f1) :: answers t.
Proof. exact @history_other_names. Qed.
Print Assumptions C31_other_arguments_refuted.

(** A source with several functions of one signature: the first call runs the last of them, the second call the
    first (if the memory of a freed object is intact). *)
Theorem C31_two_functions_refuted :
  forall (source arg sig code : Type) (source_dec : forall a b : source, {a = b} + {a <> b})
    (sig_dec : forall a b : sig, {a = b} + {a <> b}) (w : world source arg sig code) l t c s g fs f1 f2,
  run source_dec sig_dec w l new_engine = Ret t -> waiting t = [] -> lru_get source_dec (the_cache t) s = Ret (c, None) ->
  compile_functions w s = Some ((g, f1) :: fs ++ [(g, f2)]) -> intact w = true -> reenters w f1 = false ->
  exists t', run source_dec sig_dec w
      (l ++ [E_begin (C_function s g); E_finish 0; E_begin (C_function s g)]) new_engine = Ret t' /\
    answers t' = (C_function s g, Called f1) :: (C_function s g, Called f2) :: answers t.
Proof. exact @history_two_functions. Qed.
Print Assumptions C31_two_functions_refuted.

(** Every first evaluation of a source with a function of the signature asked for calls a freed object. *)
Theorem C31_first_evaluation_refuted :
  forall (source arg sig code : Type) (source_dec : forall a b : source, {a = b} + {a <> b})
    (sig_dec : forall a b : sig, {a = b} + {a <> b}) (w : world source arg sig code) l t c s g fs f,
  run source_dec sig_dec w l new_engine = Ret t -> waiting t = [] -> lru_get source_dec (the_cache t) s = Ret (c, None) ->
  compile_functions w s = Some fs -> In (g, f) fs -> intact w = false ->
  run source_dec sig_dec w (l ++ [E_begin (C_function s g); E_finish 0]) new_engine = UB.
Proof. exact @history_first_evaluation. Qed.
Print Assumptions C31_first_evaluation_refuted.

(** A function that evaluates something through the engine: the first evaluation returns, the second one
    never does. *)
Theorem C31_reentrant_refuted :
  forall (source arg sig code : Type) (source_dec : forall a b : source, {a = b} + {a <> b})
    (sig_dec : forall a b : sig, {a = b} + {a <> b}) (w : world source arg sig code) l t c s names g f,
  run source_dec sig_dec w l new_engine = Ret t -> waiting t = [] -> lru_get source_dec (the_cache t) s = Ret (c, None) ->
  compile_expression w s names g = Some f -> reenters w f = true ->
  (exists t', run source_dec sig_dec w (l ++ [E_begin (C_expression s names g); E_finish 0]) new_engine = Ret t' /\
    answers t' = (C_expression s names g, Called f) :: answers t) /\
  run source_dec sig_dec w
    (l ++ [E_begin (C_expression s names g); E_finish 0; E_begin (C_expression s names g)]) new_engine = Hang.
Proof. exact @history_reentrant. Qed.
Print Assumptions C31_reentrant_refuted.

(** A world of numbered sources: the code of an expression is its source followed by its argument names; source 7
    has two functions of signature 1. *)
Definition w_ex : world nat nat nat (list nat) :=
  {| compile_functions := fun s => if Nat.eqb s 7 then Some [(1, [70]); (2, [71]); (1, [72])] else None;
     compile_expression := fun s names g => if Nat.eqb s 7 then None else Some (s :: g :: names);
     reenters := fun _ => false; intact := true |}.
(** Two threads evaluate 3 and 4 at the same time, then 3 is found in the cache. *)
Example C31_ex : exists t, run PeanoNat.Nat.eq_dec PeanoNat.Nat.eq_dec w_ex
  [E_begin (C_expression 3 [8; 9] 1); E_begin (C_expression 4 [8] 1); E_finish 1; E_finish 0; E_begin (C_function 7 2);
   E_finish 0; E_begin (C_expression 3 [8; 9] 1)] new_engine = Ret t /\
  answers t = [(C_expression 3 [8; 9] 1, Called [3; 1; 8; 9]); (C_function 7 2, Called [71]); (C_expression 4 [8] 1, Called [4; 1; 8]);
    (C_expression 3 [8; 9] 1, Called [3; 1; 8; 9])].
Proof. eexists. split; [vm_compute; reflexivity|]. reflexivity. Qed.
Example C31_ex_plan : forall e k, In e [E_begin (C_expression 3 [8; 9] 1); E_begin (C_expression 4 [8] 1); E_finish 1; E_finish 0;
   E_begin (C_function 7 2); E_finish 0; E_begin (C_expression 3 [8; 9] 1)] -> begun e = Some k ->
  conforms (fun s => if Nat.eqb s 7 then U_functions else if Nat.eqb s 3 then U_expression [8; 9] else U_expression [8]) k.
Proof.
  intros e k I E. cbn [In] in I. destruct I as [<-|[<-|[<-|[<-|[<-|[<-|[<-|[]]]]]]]]; inversion E; subst k; reflexivity.
Qed.
(** "8 - 9" and "9 - 8", so to speak: the second call gets the function of the first. *)
Example C31_ex_other : exists t, run PeanoNat.Nat.eq_dec PeanoNat.Nat.eq_dec w_ex
  [E_begin (C_expression 3 [8; 9] 1); E_finish 0; E_begin (C_expression 3 [9; 8] 1)] new_engine = Ret t /\
  answers t = [(C_expression 3 [9; 8] 1, Called [3; 1; 8; 9]); (C_expression 3 [8; 9] 1, Called [3; 1; 8; 9])].
Proof. eexists. split; [vm_compute; reflexivity|]. reflexivity. Qed.
