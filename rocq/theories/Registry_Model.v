(** Model of the registration templates of rapidudf/meta/function.h. *)
From Coq Require Import List Bool Arith ZArith.
Import ListNotations.
From Verif Require Import Base Lexer_Model DType_Spec DType_Model Function_Model Registry_Spec.
Local Open Scope Z_scope.

(** function.h:79-100: the description the templates build. *)
Definition offer_desc (o : offer) : desc :=
  Desc (o_name o) (get_dtype (o_return o)) (map get_dtype (o_args o)) (o_func o) None false.
(** function.h:79-100: Register or RegisterVectorFunction *)
Definition register_offer (grows : nat -> bool) (o : offer) (r : registry) : outcome (registry * bool) :=
  if o_vector o then register_vector grows (offer_desc o) r else register grows (offer_desc o) r.
(** A history of registrations and what each returned. *)
Fixpoint run_offers (grows : nat -> bool) (os : list offer) (r : registry) : outcome (registry * list bool) :=
  match os with
  | [] => Ret (r, [])
  | o :: os =>
      do! (r, ok) <- register_offer grows o r;
      do! (r, oks) <- run_offers grows os r;
      Ret (r, ok :: oks)
  end.
