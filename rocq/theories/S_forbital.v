(** S_forbital: exponential envelopes in exact arithmetic. *)
From Coq Require Import ZArith Reals.
From Flocq Require Import Core IEEE754.BinarySingleNaN.
From Coq Require Import List.
Import ListNotations.
From Verif Require Import M_float S_float S_fpotential.
Open Scope R_scope.

Section Spec.
Variables prec emax : Z.
Notation fl := (binary_float prec emax).

(** Euclidean length of a vector of machine numbers. *)
Definition squared_length (v : list fl) : R := total (map (fun c => B2R c ^ 2) v).
Definition vlength (v : list fl) : R := sqrt (squared_length v).
(** The sum over the ions of weight times e^-length. *)
Definition exact_envelope (vs : list (list fl)) (ws : list fl) : R := total (map (fun vw => B2R (snd vw) * exp (- vlength (fst vw))) (combine vs ws)).

(** A vector of length zero, or one whose squared length neither overflows nor is too small to be represented accurately. *)
Definition measurable (v : list fl) : Prop :=
  squared_length v = 0 \/ INR (length v + 1) * bpow radix2 (5 - emax) <= squared_length v <= bpow radix2 (emax - 3).

(** The error bound, for n ions in D dimensions, weights of size at most 2^q and an exponential within eps. *)
Definition envelope_error (eps : R) (q : Z) (D n : nat) : R :=
  bpow radix2 q * (INR n * (INR (2 * D + 18) * unit_roundoff prec + eps) + unit_roundoff prec * (INR n * INR n)).

(** An orbital of one electron: linear part times the sum over the ions of weight times e^-(|rate| distance). *)
Definition exact_orbital (linear rate : fl) (displacements : list (list fl)) (ws : list fl) : R :=
  B2R linear * total (map (fun vw => B2R (snd vw) * exp (- (Rabs (B2R rate) * vlength (fst vw)))) (combine displacements ws)).
(** Displacements whose scaled coordinates and scaled squared length are zero or in range. *)
Definition scalable (rate : fl) (v : list fl) : Prop :=
  (forall c, In c v -> B2R rate * B2R c = 0 \/ bpow radix2 (2 - emax) <= Rabs (B2R rate * B2R c)) /\
  (B2R rate ^ 2 * squared_length v = 0 \/ INR (length v + 1) * bpow radix2 (6 - emax) <= B2R rate ^ 2 * squared_length v <= bpow radix2 (emax - 4)).
(** The error bound for an orbital whose linear part is at most a in size. *)
Definition orbital_error (eps a : R) (q : Z) (D n : nat) : R :=
  a * (bpow radix2 q * (INR n * (INR (2 * D + 23) * unit_roundoff prec + eps) + unit_roundoff prec * (INR n * INR n))) + unit_roundoff prec * bpow radix2 (2 - emax).
End Spec.
