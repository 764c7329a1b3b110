(** * Specification: the molecular Hamiltonian *)
From Coq Require Import Reals List Arith.
From Coquelicot Require Import Coquelicot.
From Verif Require Import XReal Rsum S_physics.
Import ListNotations.
Local Open Scope R_scope.

(** Coulomb energy of n electrons at x and nion ions of the given charges at locs (softened as given):
    every pair of electrons repels, every electron is attracted by every ion, every pair of ions repels. *)
Definition coulomb (d nion : nat) (locs : nat -> nat -> R) (charges : nat -> R) (s_ei s_ee : R) (n : nat) (x : nat -> nat -> R) : R :=
  lsum (map (fun ij => 1 / soft_distance d s_ee (x (fst ij)) (x (snd ij))) (unordered_pairs n))
  - Rsum n (fun i => Rsum nion (fun j => charges j / soft_distance d s_ei (x i) (locs j)))
  + lsum (map (fun ij => charges (fst ij) * charges (snd ij) / distance d (locs (fst ij)) (locs (snd ij))) (unordered_pairs nion)).

(** (H psi)(x) for the Hamiltonian - 1/2 laplacian + Coulomb energy. *)
Definition hamiltonian (d nion : nat) (locs : nat -> nat -> R) (charges : nat -> R) (s_ei s_ee : R) (n : nat)
    (psi : (nat -> nat -> R) -> R) (x : nat -> nat -> R) : R :=
  - (1 / 2) * sum_coordinates n d (second_partial psi x) + coulomb d nion locs charges s_ei s_ee n x * psi x.

(** x is an ordinary point of psi: psi depends only on the n electrons, is non-zero and twice
    differentiable at x, and no two particles coincide. *)
Definition ordinary (d nion : nat) (locs : nat -> nat -> R) (s_ei s_ee : R) (n : nat) (psi : (nat -> nat -> R) -> R) (x : nat -> nat -> R) : Prop :=
  reads n d psi /\ psi x <> 0 /\ smooth_at n d psi x /\
  no_ion_coincidence d s_ei n nion x locs /\ no_coincidence d s_ee n x /\ no_coincidence d 0 nion locs.

(** Function whose laplacian is the (unsoftened, 3D) Coulomb energy of the chosen kinds of pairs. *)
Definition cone (d nion : nat) (locs : nat -> nat -> R) (charges : nat -> R) (ei ee : bool) (n : nat) (x : nat -> nat -> R) : R :=
  (if ei then - Rsum n (fun i => Rsum nion (fun j => charges j / 2 * distance d (x i) (locs j))) else 0)
  + (if ee then lsum (map (fun ij => distance d (x (fst ij)) (x (snd ij)) / 4) (unordered_pairs n)) else 0).
