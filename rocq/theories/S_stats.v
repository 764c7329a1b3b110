(** * Specifications for the time-series statistics *)
From Coq Require Import Reals List Arith.
From Verif Require Import Rsum.
Import ListNotations.
Local Open Scope R_scope.

Definition mean (n : nat) (x : nat -> R) : R := Rsum n x / INR n.

(** The direct (non-circular) autocovariance estimate at lag i. *)
Definition direct_autocov (N : nat) (x : nat -> R) (i : nat) : R :=
  Rsum (N - i) (fun t => (x t - mean N x) * (x (t + i)%nat - mean N x)) / INR (N - i).

Definition constant_chain (N : nat) (x : nat -> R) : Prop := forall s t, (s < N)%nat -> (t < N)%nat -> x s = x t.

(** Unbiased sample variance. *)
Definition sample_var (n : nat) (x : nat -> R) : R := Rsum n (fun i => (x i - mean n x) ^ 2) / INR (n - 1).

(** Within-chain and between-chain variances and the combined variance (Stan reference manual). *)
Definition W (N M : nat) (x : nat -> nat -> R) : R := mean M (fun c => sample_var N (fun t => x t c)).
Definition B (N M : nat) (x : nat -> nat -> R) : R := sample_var M (fun c => mean N (fun t => x t c)).
Definition V (N M : nat) (x : nat -> nat -> R) : R := W N M x * INR (N - 1) / INR N + B N M x.

(** Combined autocorrelation at lag i. *)
Definition combined_autocorr (N M : nat) (x : nat -> nat -> R) (i : nat) : R :=
  let rho c := direct_autocov N (fun t => x t c) i / direct_autocov N (fun t => x t c) 0 in
  1 - (W N M x - mean M (fun c => sample_var N (fun t => x t c) * rho c)) / V N M x.

(** Smallest of f 0 .. f i. *)
Fixpoint min_upto (f : nat -> R) (i : nat) : R := match i with O => f O | S j => Rmin (min_upto f j) (f (S j)) end.
