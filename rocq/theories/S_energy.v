(** * Specifications for energy averages, clipping and gradients *)
From Coq Require Import Reals List Arith.
From Coquelicot Require Import Coquelicot.
From Verif Require Import Rsum.
Import ListNotations.
Local Open Scope R_scope.

(** Sample mean, unbiased sample variance, unbiased sample covariance. *)
Definition lmean (l : list R) : R := lsum l / INR (length l).
Definition lvar (l : list R) : R := lsum (map (fun e => (e - lmean l) ^ 2) l) / (INR (length l) - 1).
Definition lcov (l l' : list R) : R :=
  lsum (map (fun ed => (fst ed - lmean l) * (snd ed - lmean l')) (combine l l')) / (INR (length l) - 1).

(** Data spread evenly over devices: at least one device, at least one walker each, equally many on each. *)
Definition evenly {A} (shards : list (list A)) : Prop :=
  exists k, (0 < k)%nat /\ shards <> [] /\ forall s, In s shards -> length s = k.

(** Mean distance from a centre, and the value at distance at most w from the centre closest to e. *)
Definition mean_distance (c : R) (l : list R) : R := lmean (map (fun e => Rabs (e - c)) l).
Definition closest_within (c w e e' : R) : Prop :=
  Rabs (e' - c) <= w /\ forall y, Rabs (y - c) <= w -> Rabs (e - e') <= Rabs (e - y).

(** m is a median of l: at least half of the entries are <= m and at least half are >= m. *)
Definition is_median (m : R) (l : list R) : Prop :=
  (length l <= 2 * length (filter (fun e => if Rle_dec e m then true else false) l))%nat /\
  (length l <= 2 * length (filter (fun e => if Rle_dec m e then true else false) l))%nat.

(** Expectation over n independent draws from a distribution p on the states 0..K-1. *)
Fixpoint Eiid (K : nat) (p : nat -> R) (n : nat) (f : list nat -> R) : R :=
  match n with
  | O => f []
  | S n => Rsum K (fun s => p s * Eiid K p n (fun l => f (s :: l)))
  end.
