(** S_fdense: what a linear layer in the log domain should return. *)
From Coq Require Import ZArith Reals.
From Flocq Require Import Core IEEE754.BinarySingleNaN.
From Coq Require Import Lia List Bool Arith.
Import ListNotations.
From Verif Require Import M_float S_float.
Open Scope R_scope.

Section Spec.
Variables prec emax : Z.
Context {Hp : Prec_gt_0 prec}.
Context {He : Prec_lt_emax prec emax}.
Notation fl := (binary_float prec emax).

(** The sum of the numbers (divided by e^c) that the signed logs stand for, times their weights. *)
Fixpoint linear (c : R) (xs : list (fl * fl)) (ws : list fl) : R :=
  match xs, ws with x :: xs, w :: ws => B2R w * amount prec emax c x + linear c xs ws | _, _ => 0 end.
(** One output in exact arithmetic; the last weight of a column is the bias. *)
Definition exact_output (use_bias : bool) (xs : list (fl * fl)) (ws : list fl) : R :=
  if use_bias then linear 0 xs (removelast ws) + B2R (last ws B754_nan) else linear 0 xs ws.

(** A weight of size at most 2^q. *)
Definition is_weight (q : Z) (w : fl) : Prop := is_finite w = true /\ Rabs (B2R w) <= bpow radix2 q.
(** The bound on the error of the scaled sum of n terms. *)
Definition dense_error (eps : R) (q : Z) (n : nat) : R := bpow radix2 q * (INR n * (3 * unit_roundoff prec + eps) + unit_roundoff prec * (INR n * INR n)).
End Spec.
