(** S_foptax: exact learning rates and traces; what is assumed of the numbers and of jnp.power. *)
From Coq Require Import ZArith Reals.
From Flocq Require Import Core IEEE754.BinarySingleNaN.
From Coq Require Import Lia List Bool Arith.
Import ListNotations.
From Verif Require Import M_float S_float.
Open Scope R_scope.

Section Spec.
Variables prec emax : Z.
Context {Hp : Prec_gt_0 prec}.
Context {He : Prec_lt_emax prec emax}.
Notation fl := (binary_float prec emax).

(** The learning rate in exact arithmetic. *)
Definition inverse_time (lr decay : R) (t : nat) : R := lr / (1 + decay * INR t).

(** The exact exponentially weighted sum of gradients, the last gradient with weight 1. *)
Fixpoint weighted_sum (m : R) (gs_reversed : list R) : R :=
  match gs_reversed with [] => 0 | g :: earlier => g + m * weighted_sum m earlier end.

(** Adam's direction in exact arithmetic, from its moments m and v and the powers p1 and p2 of its decay rates. *)
Definition adam_quotient (m v p1 p2 eps eps_root : R) : R := m / (1 - p1) / (sqrt (v / (1 - p2) + eps_root) + eps).

(** A number that is not negative. *)
Definition is_rate (x : fl) : Prop := is_finite x = true /\ 0 <= B2R x.
(** A decay rate at most 1 - 2^-j. *)
Definition is_decay (j : Z) (b : fl) : Prop := is_finite b = true /\ 0 <= B2R b <= 1 - bpow radix2 (- j).
(** A gradient of size at most 2^k. *)
Definition is_gradient (k : Z) (g : fl) : Prop := is_finite g = true /\ Rabs (B2R g) <= bpow radix2 k.
(** Positive powers of a number between 0 and 1 are numbers between 0 and it: all that is assumed of jnp.power. *)
Definition shrinking_power (fpow : fl -> nat -> fl) : Prop :=
  forall b n, is_finite b = true -> 0 <= B2R b <= 1 -> (0 < n)%nat -> is_finite (fpow b n) = true /\ 0 <= B2R (fpow b n) <= B2R b.
End Spec.
