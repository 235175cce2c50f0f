(** Shared vocabulary: outcomes of C++ operations and machine integers. *)
From Coq Require Import List ZArith Lia Bool Znumtheory.
Import ListNotations.

(** Outcome of a C++ operation.  [Ret] : returned normally.  [Err] : reported an
    error (status value or C++ exception).  [UB] : undefined behaviour (out of
    bounds access, dangling pointer, invalid iterator, ...).  [Hang] : the
    operation does not terminate. *)
Inductive outcome (A : Type) : Type :=
| Ret (a : A)
| Err
| UB
| Hang.
Arguments Ret {A} a.
Arguments Err {A}.
Arguments UB {A}.
Arguments Hang {A}.

Definition obind {A B} (x : outcome A) (f : A -> outcome B) : outcome B :=
  match x with
  | Ret a => f a
  | Err => Err
  | UB => UB
  | Hang => Hang
  end.

Notation "'do!' x <- e ; f" := (obind e (fun x => f)) (at level 200, x pattern, e at level 100, f at level 200).

(** Unsigned / signed machine integers of [w] bits, as representatives in Z. *)
Definition wrapu (w : Z) (z : Z) : Z := (z mod 2 ^ w)%Z.
Definition wraps (w : Z) (z : Z) : Z :=
  let u := (z mod 2 ^ w)%Z in
  if (u <? 2 ^ (w - 1))%Z then u else (u - 2 ^ w)%Z.

(** Values that an unsigned / signed machine integer of [w] bits can hold. *)
Definition in_u (w : Z) (z : Z) : Prop := (0 <= z < 2 ^ w)%Z.
Definition in_s (w : Z) (z : Z) : Prop := (- 2 ^ (w - 1) <= z < 2 ^ (w - 1))%Z.

Lemma wrapu_id w z : in_u w z -> wrapu w z = z.
Proof. unfold in_u, wrapu. intros. apply Z.mod_small. lia. Qed.

Lemma wrapu_range w z : (0 <= w)%Z -> in_u w (wrapu w z).
Proof.
  unfold in_u, wrapu. intros. apply Z.mod_pos_bound. apply Z.pow_pos_nonneg; lia.
Qed.

Lemma pow2_split w : (1 <= w)%Z -> (2 ^ w = 2 * 2 ^ (w - 1))%Z.
Proof. intros. replace w with (Z.succ (w - 1)) at 1 by lia. rewrite Z.pow_succ_r; lia. Qed.

Lemma wraps_id w z : (1 <= w)%Z -> in_s w z -> wraps w z = z.
Proof.
  unfold in_s, wraps. intros Hw H. pose proof (pow2_split w Hw) as E.
  assert (0 < 2 ^ (w - 1))%Z by (apply Z.pow_pos_nonneg; lia).
  destruct (Z_lt_dec z 0).
  - assert (z mod 2 ^ w = z + 2 ^ w)%Z as ->.
    { symmetry. apply Z.mod_unique with (q := (-1)%Z). left; lia. lia. }
    destruct (Z.ltb_spec (z + 2 ^ w) (2 ^ (w - 1))); lia.
  - rewrite Z.mod_small by lia.
    destruct (Z.ltb_spec z (2 ^ (w - 1))); lia.
Qed.

Lemma wraps_range w z : (1 <= w)%Z -> in_s w (wraps w z).
Proof.
  unfold in_s, wraps. intros Hw. pose proof (pow2_split w Hw) as E.
  assert (0 < 2 ^ (w - 1))%Z by (apply Z.pow_pos_nonneg; lia).
  pose proof (Z.mod_pos_bound z (2 ^ w)).
  destruct (Z.ltb_spec (z mod 2 ^ w) (2 ^ (w - 1))); lia.
Qed.

(** Keep [simpl] from unfolding integer arithmetic on literals. *)
#[global] Arguments Z.add : simpl never.
#[global] Arguments Z.sub : simpl never.
#[global] Arguments Z.mul : simpl never.
#[global] Arguments Z.opp : simpl never.
#[global] Arguments Z.pow : simpl never.
#[global] Arguments Z.div : simpl never.
#[global] Arguments Z.modulo : simpl never.
#[global] Arguments Z.land : simpl never.
#[global] Arguments Z.lor : simpl never.
#[global] Arguments Z.lxor : simpl never.
#[global] Arguments Z.shiftl : simpl never.
#[global] Arguments Z.shiftr : simpl never.
#[global] Arguments Z.of_nat : simpl never.
#[global] Arguments Z.to_nat : simpl never.
#[global] Arguments Z.max : simpl never.
#[global] Arguments Z.min : simpl never.

(** Evaluate literal powers of two in the goal and the context. *)
Ltac pows :=
  repeat match goal with
  | |- context [(2 ^ ?n)%Z] => let v := eval vm_compute in (2 ^ n)%Z in
                           lazymatch v with Zpos _ => change (2 ^ n)%Z with v end
  | H : context [(2 ^ ?n)%Z] |- _ => let v := eval vm_compute in (2 ^ n)%Z in
                           lazymatch v with Zpos _ => change (2 ^ n)%Z with v in H end
  end.

Lemma mod_mod_pow a w w' : (0 <= w <= w')%Z -> ((a mod 2 ^ w') mod 2 ^ w = a mod 2 ^ w)%Z.
Proof.
  intros. symmetry. apply Zmod_div_mod; try (apply Z.pow_pos_nonneg; lia).
  exists (2 ^ (w' - w))%Z. rewrite <- Z.pow_add_r by lia. f_equal. lia.
Qed.

Lemma wraps_wrapu w w' z : (0 <= w <= w')%Z -> wraps w (wrapu w' z) = wraps w z.
Proof. intros. unfold wraps, wrapu. now rewrite mod_mod_pow. Qed.

Lemma wrapu_wraps w z : (1 <= w)%Z -> wrapu w (wraps w z) = wrapu w z.
Proof.
  intros Hw. pose proof (Z.pow_pos_nonneg 2 w ltac:(lia) ltac:(lia)).
  unfold wraps, wrapu. cbv zeta. destruct (Z.ltb_spec (z mod 2 ^ w) (2 ^ (w - 1))).
  - apply Z.mod_mod. lia.
  - replace (z mod 2 ^ w - 2 ^ w)%Z with (z mod 2 ^ w + (-1) * 2 ^ w)%Z by lia.
    rewrite Z_mod_plus_full. apply Z.mod_mod. lia.
Qed.
