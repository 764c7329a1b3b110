(** S_float: what is meant and assumed when signed logs are machine floating-point numbers. *)
From Coq Require Import ZArith Reals.
From Flocq Require Import Core IEEE754.BinarySingleNaN.
From Coq Require Import Lia List.
Import ListNotations.
From Verif Require Import M_float.
Open Scope R_scope.

Section Spec.
Variables prec emax : Z.
Context {Hp : Prec_gt_0 prec}.
Context {He : Prec_lt_emax prec emax}.
Notation fl := (binary_float prec emax).

(** A sign: 1, -1, or a zero of either sign. *)
Definition sign_number (x : fl) : Prop := is_finite x = true /\ (B2R x = 1 \/ B2R x = -1 \/ B2R x = 0).

(** A log: a number or -inf (the log of zero). *)
Definition log_number (x : fl) : Prop := is_finite x = true \/ x = B754_infinity true.

(** The log is that of a nonzero amount. *)
Definition nonzero_log (x : fl) : Prop := is_finite x = true.

(** The real number that a signed log stands for; and the same divided by e^c. *)
Definition amount (c : R) (x : fl * fl) : R :=
  if is_finite (snd x) then B2R (fst x) * exp (B2R (snd x) - c) else 0.
Definition total (c : R) (xs : list (fl * fl)) : R := fold_right Rplus 0 (map (amount c) xs).

(** [c] is the largest of the logs that are numbers. *)
Definition largest (xs : list (fl * fl)) (c : R) : Prop :=
  (exists x, In x xs /\ is_finite (snd x) = true /\ B2R (snd x) = c) /\
  (forall x, In x xs -> is_finite (snd x) = true -> B2R (snd x) <= c).

(** The unit roundoff. *)
Definition unit_roundoff : R := bpow radix2 (- prec).

(** What is assumed about jnp.exp at the numbers log_linear_exp gives it, which are at most 0: it
    returns numbers between 0 and 1 within [eps] of the exponential, exactly 1 at 0 and exactly 0
    at -inf. *)
Definition good_exp (eps : R) (e : fl -> fl) : Prop :=
  e B754_nan = B754_nan /\
  (is_finite (e (B754_infinity true)) = true /\ B2R (e (B754_infinity true)) = 0) /\
  (forall x, is_finite x = true -> B2R x <= 0 ->
     is_finite (e x) = true /\ 0 <= B2R (e x) <= 1 /\ Rabs (B2R (e x) - exp (B2R x)) <= eps /\
     (B2R x = 0 -> B2R (e x) = 1)).

(** What is assumed about jnp.log: -inf at zeros, NaN at NaN, a number no larger than
    emax + prec at every positive number, and between 1 and 2^prec not negative and within [eps]
    of the logarithm. *)
Definition good_log (eps : R) (l : fl -> fl) : Prop :=
  l B754_nan = B754_nan /\
  (forall s, l (B754_zero s) = B754_infinity true) /\
  (forall x, is_finite x = true -> 0 < B2R x ->
     is_finite (l x) = true /\ Rabs (B2R (l x)) <= IZR (emax + prec) /\
     (1 <= B2R x <= bpow radix2 prec -> 0 <= B2R (l x) /\ Rabs (B2R (l x) - ln (B2R x)) <= eps)).

(** The format has room: it has at least two digits, and its range is much larger than its number
    of digits.  True of binary16, bfloat16, binary32 and binary64. *)
Definition roomy : Prop := (2 <= prec)%Z /\ IZR (emax + prec) <= bpow radix2 (emax - 2).

(** The bound on the error of the scaled sum of n terms. *)
Definition sum_error (eps : R) (n : nat) : R :=
  INR n * (unit_roundoff + eps) + unit_roundoff * (INR n * INR n).
End Spec.
