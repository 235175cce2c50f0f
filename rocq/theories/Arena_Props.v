(** C02, C03: arena safety and accounting. *)
From Coq Require Import List ZArith.
Import ListNotations.
From Verif Require Import Base Arena_Model Arena_Spec Arena_Proofs.
Open Scope Z_scope.

(** Live regions never overlap; each is aligned and lies in memory the arena owns now. *)
Theorem C02_arena_regions_disjoint_inside_aligned :
  forall cf, config_ok cf -> forall a live, history cf a live ->
    pairwise_disjoint live /\
    Forall (fun r => (maxAlign cf | fst r) /\ exists o, In o (owned a) /\ inside r o) live.
Proof. exact arena_safe. Qed.
Print Assumptions C02_arena_regions_disjoint_inside_aligned.

(** No step of any history has undefined behaviour: it returns a pointer or throws bad_alloc. *)
Theorem C02_arena_no_undefined_behaviour :
  forall cf, config_ok cf -> forall a live o a' res,
    history cf a live -> op_ok a o -> arena_step cf a o = (a', res) ->
    res = Err \/ exists p, res = Ret p.
Proof. exact history_no_ub. Qed.
Print Assumptions C02_arena_no_undefined_behaviour.

(** The configuration every rapidudf Arena uses is covered, and histories are non-trivial. *)
Example C02_default_config : config_ok default_config.
Proof. exact default_config_ok. Qed.
Example C02_history_example :
  exists a, history default_config a [(8224, 5000); (4160, 1000); (4112, 40)].
Proof. exact history_example. Qed.

(** With an over-aligned configuration (accepted by the constructor) a returned region
    leaves the block: `end_` is computed from the aligned start. *)
Theorem C02_arena_over_aligned_refuted :
  exists a live r, history over_aligned a live /\ In r live /\ forall o, In o (owned a) -> ~ inside r o.
Proof. exact over_aligned_escapes. Qed.
Print Assumptions C02_arena_over_aligned_refuted.

(** The reported total is the number of bytes owned, exactly (no wrap-around). *)
Theorem C03_arena_total_exact :
  forall cf, config_ok cf -> forall a live, history cf a live -> totalAllocatedSize a = total (owned a).
Proof. exact total_exact. Qed.
Print Assumptions C03_arena_total_exact.

(** A configured size limit is never exceeded. *)
Theorem C03_arena_limit_respected :
  forall cf, config_ok cf -> forall a live, history cf a live ->
    sizeLimit cf <> 0 -> totalAllocatedSize a <= sizeLimit cf.
Proof. exact total_le_limit. Qed.
Print Assumptions C03_arena_limit_respected.

(** While no request fails, the reported usage is the sum of the rounded sizes of the live
    regions.  Missing from the full claim: histories with a failing request, see below. *)
Theorem C03_arena_used_exact_partial :
  forall cf, config_ok cf -> forall a live, history_ok cf a live ->
    bytesUsed a = total_rounded (maxAlign cf) live.
Proof. exact used_exact. Qed.
Print Assumptions C03_arena_used_exact_partial.

(** A request that throws bad_alloc is still counted as used. *)
Theorem C03_arena_failed_request_counted_refuted :
  exists o a', arena_step default_config arena_new o = (a', Err) /\ op_ok arena_new o /\ bytesUsed a' <> 0.
Proof. exact failed_request_counted. Qed.
Print Assumptions C03_arena_failed_request_counted_refuted.
