(** S_fcheckpoint: exact sliding windows and the exact error-adjusted average. *)
From Coq Require Import ZArith Reals.
From Flocq Require Import Core IEEE754.BinarySingleNaN.
From Coq Require Import Lia List Arith.
Import ListNotations.
From Verif Require Import S_fenergy.
Open Scope R_scope.

(** The last [n] of the values up to epoch [i] (all of them if there are fewer). *)
Definition window {T} (n i : nat) (l : list T) : list T := let seen := firstn (S i) l in skipn (length seen - n) seen.

(** The exact error-adjusted average: mean energy of the window plus the standard error, from the mean variance of the window and the number of effective samples. *)
Definition exact_metric (energies variances : list R) (effective : R) : R := real_mean energies + sqrt (real_mean variances / effective).
