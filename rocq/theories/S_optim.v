(** * Specification vocabulary for the optimiser properties (C56-C61) *)
From Coq Require Import Reals List.
From Verif Require Import Rsum.
Import ListNotations.
Local Open Scope R_scope.

(** Average of a quantity over walkers 0..n-1. *)
Definition average (n : nat) (f : nat -> R) : R := Rsum n f / INR n.
(** The SPRING objective: mean squared misfit between the change of log|psi| (relative to its mean over the walkers)
    caused by the parameter change [d] and the energies, plus damping times the squared distance to the decayed
    previous direction. *)
Definition spring_objective (n np : nat) (damping mu : R) (dlog : nat -> nat -> R) (energies prev d : nat -> R) : R :=
  average n (fun i => (Rsum np (fun k => (dlog i k - average n (fun j => dlog j k)) * d k) - energies i) ^ 2)
  + damping * Rsum np (fun k => (d k - mu * prev k) ^ 2).

(** Vectors equal in their first [n] entries. *)
Definition agree (n : nat) (u v : nat -> R) : Prop := forall k, (k < n)%nat -> u k = v k.
Definition sq_norm (n : nat) (u : nat -> R) : R := Rsum n (fun k => u k ^ 2).

(** Average over a list. *)
Definition avg_list (l : list R) : R := lsum l / INR (length l).
(** Covariance of the log-derivatives with respect to parameters k and l over all walkers. *)
Definition covariance (walkers : list (nat -> R)) (k l : nat) : R :=
  avg_list (map (fun g => (g k - avg_list (map (fun h => h k) walkers)) * (g l - avg_list (map (fun h => h l) walkers))) walkers).
(** The damped covariance matrix applied to a vector. *)
Definition fisher (np : nat) (damping : R) (walkers : list (nat -> R)) (x : nat -> R) : nat -> R :=
  fun k => Rsum np (fun l => covariance walkers k l * x l) + damping * x k.

(** Walking only, [n] times, at fixed parameters: data and key. *)
Fixpoint walk_only {P D K X : Type} (walker : P -> D -> K -> X * D * K) (n : nat) (p : P) (d : D) (k : K) : D * K :=
  match n with O => (d, k) | S n => let '(_, d, k) := walker p d k in walk_only walker n p d k end.
