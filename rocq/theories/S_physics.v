(** * Specifications for the energy terms (C33-C41) *)
From Coq Require Import Reals List Arith Permutation.
From Coquelicot Require Import Coquelicot.
From Verif Require Import XReal Rsum.
From Verif Require Export S_perm.
Import ListNotations.
Local Open Scope R_scope.

(** Ordinary Euclidean distance of two points with d coordinates. *)
Definition distance (d : nat) (a b : nat -> R) : R := sqrt (Rsum d (fun c => (a c - b c) ^ 2)).

(** Distance with softening s: sqrt(distance^2 + s^2). *)
Definition soft_distance (d : nat) (s : R) (a b : nat -> R) : R := sqrt (distance d a b ^ 2 + s ^ 2).

(** The unordered pairs of distinct indices below n, each once. *)
Definition unordered_pairs (n : nat) : list (nat * nat) :=
  flat_map (fun i => map (fun j => (i, j)) (seq (S i) (n - S i))) (seq 0 n).

(** Average of a quantity over all orders of the n particles. *)
Definition average_over_orders (n : nat) (f : (nat -> nat) -> R) : R :=
  lsum (map (fun p => f (fun i => nth i p O)) (orders (seq 0 n))) / INR (length (orders (seq 0 n))).

(** Positions with coordinate c of particle i displaced by t. *)
Definition displaced (x : nat -> nat -> R) (i c : nat) (t : R) : nat -> nat -> R :=
  fun i' c' => if (Nat.eqb i' i && Nat.eqb c' c)%bool then x i' c' + t else x i' c'.

(** First and second partial derivatives with respect to coordinate c of particle i. *)
Definition partial (f : (nat -> nat -> R) -> R) (x : nat -> nat -> R) (i c : nat) : R := Derive (fun t => f (displaced x i c t)) 0.
Definition second_partial (f : (nat -> nat -> R) -> R) (x : nat -> nat -> R) (i c : nat) : R :=
  Derive_n (fun t => f (displaced x i c t)) 2 0.

(** f depends only on the first d coordinates of the first n particles. *)
Definition reads (n d : nat) {A} (f : (nat -> nat -> R) -> A) : Prop :=
  forall x y, (forall i c, (i < n)%nat -> (c < d)%nat -> x i c = y i c) -> f x = f y.

(** f has first derivatives near x and second derivatives at x along every coordinate. *)
Definition smooth_at (n d : nat) (f : (nat -> nat -> R) -> R) (x : nat -> nat -> R) : Prop :=
  forall i c, (i < n)%nat -> (c < d)%nat ->
    locally 0 (fun t => ex_derive (fun t => f (displaced x i c t)) t) /\ ex_derive (Derive (fun t => f (displaced x i c t))) 0.

(** No two of the n particles, and no particle and ion, at (softened) distance 0. *)
Definition no_coincidence (d : nat) (s : R) (n : nat) (x : nat -> nat -> R) : Prop :=
  forall i j, (i < n)%nat -> (j < n)%nat -> i <> j -> soft_distance d s (x i) (x j) <> 0.
Definition no_ion_coincidence (d : nat) (s : R) (n nion : nat) (x locs : nat -> nat -> R) : Prop :=
  forall i j, (i < n)%nat -> (j < nion)%nat -> soft_distance d s (x i) (locs j) <> 0.

(** The number an energy evaluates to (0 stands for an error or a non-finite value). *)
Definition toR (v : option xr) : R := match v with Some (Fin r) => r | _ => 0 end.

(** Sum over all coordinates of the n particles. *)
Definition sum_coordinates (n d : nat) (f : nat -> nat -> R) : R := Rsum n (fun i => Rsum d (fun c => f i c)).

(** Physicists' Hermite polynomials by Rodrigues' formula. *)
Definition hermite (n : nat) (x : R) : R := (- 1) ^ n * exp (x ^ 2) * Derive_n (fun y => exp (- y ^ 2)) n x.

(** What logarithmic (sign, log) output of a wavefunction means. *)
Definition slog_of (v : R) : xr * xr :=
  (Fin (if Rlt_dec v 0 then - 1 else if Rlt_dec 0 v then 1 else 0),
   if Req_EM_T v 0 then MInf else Fin (ln (Rabs v))).
