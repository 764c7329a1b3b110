(** * Model of the energy terms: vmcnet/physics/{potential,kinetic,random_particle,ibp,spin,core}.py
      and of vmcnet/examples/{hydrogen_like_atom,harmonic_oscillator}.py

    Simplifications, used throughout this file:
    - one walker (the code is vmapped or broadcasts over walkers);
    - finite floating-point arithmetic is exact; divisions by zero, infinities and NaN are kept ([xr]);
    - an array of shape (n, d) is a function [nat -> nat -> R] (particle, coordinate) of which only the
      entries below n and d count;
    - [jax.grad] and [jax.jvp] of an abstract wavefunction are the analytic derivative
      ([Derive], Coquelicot). *)
From Coq Require Import Reals List Bool Arith.
From Coquelicot Require Import Coquelicot.
From Verif Require Import XReal Rsum Det M_stats M_distribute M_energy.
Import ListNotations.
Local Open Scope R_scope.

Definition positions := nat -> nat -> R.

(** potential.py 11-21: [compute_displacements]. *)
Definition compute_displacements (x y : positions) (i j c : nat) : R := x i c - y j c.

(** potential.py 30-49: [compute_soft_norm] of one displacement of dimension d. *)
Definition compute_soft_norm (d : nat) (displacement : nat -> R) (softening : R) : R :=
  sqrt (Rsum d (fun c => displacement c ^ 2) + softening ^ 2).

(** potential.py 64-71: [_soft_norm_bwd], cotangents of one displacement and of the softening for the
    cotangent g of its norm.  (For several displacements the second output is summed over all norms
    before multiplying by g; the model has one displacement.) *)
Definition soft_norm_bwd (norm : R) (displacement : nat -> R) (softening g : R) : (nat -> R) * xr :=
  (fun c => g * (if Req_EM_T norm 0 then 0 else displacement c / norm), xmul (Fin g) (xdiv (Fin softening) (Fin norm))).

(** jnp.triu(m, k=1) and jnp.tril(m, k=-1): entries are selected, not multiplied by 0. *)
Definition triu1 (m : nat -> nat -> xr) (i j : nat) : xr := if Nat.ltb i j then m i j else Fin 0.
Definition tril1 (m : nat -> nat -> xr) (i j : nat) : xr := if Nat.ltb j i then m i j else Fin 0.

(** jnp.sum over the last two axes. *)
Definition xsum2 (n m : nat) (a : nat -> nat -> xr) : xr := xsum_n n (fun i => xsum_n m (a i)).

(** potential.py 85-128: electron-ion potential; [None] is Python's ZeroDivisionError for nparticles = 0. *)
Definition electron_ion_potential (d nion : nat) (ion_locations : positions) (ion_charges : nat -> R) (strength softening : R)
    (nparticles : option nat) (n : nat) (x : positions) : option xr :=
  let value m multiplier :=
    xmul (xmul (Fin (- strength))
      (xsum2 m nion (fun i j => xdiv (Fin (ion_charges j))
         (Fin (compute_soft_norm d (compute_displacements x ion_locations i j) softening))))) (Fin multiplier) in
  match nparticles with
  | None => Some (value n 1)
  | Some O => None
  | Some k => Some (value (Nat.min k n) (INR n / INR k))
  end.

(** potential.py 131-175: electron-electron potential. *)
Definition electron_electron_potential (d : nat) (strength softening : R) (nparticles : option nat) (n : nat) (x : positions) : option xr :=
  let repulsion i j := xdiv (Fin strength) (Fin (compute_soft_norm d (compute_displacements x x i j) softening)) in
  match nparticles with
  | None => Some (xsum2 n n (triu1 repulsion))
  | Some O => None
  | Some k =>
      let multiplier := INR n / INR k in
      Some (xdiv (xmul (xsum2 (Nat.min k n) n (fun i j => xadd (triu1 repulsion i j) (tril1 repulsion i j))) (Fin multiplier)) (Fin 2))
  end.

(** potential.py 76-82 and 178-207: ion-ion potential, computed once; the electrons are ignored. *)
Definition ion_ion_potential (d nion : nat) (ion_locations : positions) (ion_charges : nat -> R) (n : nat) (x : positions) : option xr :=
  Some (xsum2 nion nion (triu1 (fun i j => xdiv (Fin (ion_charges i * ion_charges j))
          (Fin (compute_soft_norm d (compute_displacements ion_locations ion_locations i j) 0))))).

(** jnp.reshape(x, (-1,)) of an (n, d) array and back. *)
Definition flat (d : nat) (x : positions) (k : nat) : R := x (k / d)%nat (k mod d)%nat.
Definition unflat (d : nat) (v : nat -> R) (i c : nat) : R := v (i * d + c)%nat.

(** Positions moved by t in one coordinate; flat vectors moved by t along v. *)
Definition move (x : positions) (i c : nat) (t : R) : positions :=
  fun i' c' => if Nat.eqb i' i && Nat.eqb c' c then x i' c' + t else x i' c'.
Definition along (x v : nat -> R) (t : R) (k : nat) : R := x k + t * v k.

(** jax.grad(log_psi_apply, argnums=1). *)
Definition grad_x (f : positions -> R) (x : positions) : positions := fun i c => Derive (fun t => f (move x i c t)) 0.

(** jax.jvp of a vector-valued function: value and directional derivative. *)
Definition jvp (g : (nat -> R) -> nat -> R) (x v : nat -> R) : (nat -> R) * (nat -> R) :=
  (g x, fun j => Derive (fun t => g (along x v t) j) 0).

Definition dot (n : nat) (a b : nat -> R) : R := Rsum n (fun i => a i * b i).

(** A row of jnp.eye(n). *)
Definition identity_row (i : nat) : nat -> R := fun k => if Nat.eqb k i then 1 else 0.

(** core.py 97-182: [laplacian_psi_over_psi] for positions of shape (np, d).  [sampled] is
    (nparticles, particle_perm) when both are given.  A traced index beyond the last row is clamped by JAX.
    [None]: ZeroDivisionError for nparticles = 0. *)
Definition laplacian_psi_over_psi (grad_log_psi : positions -> positions) (np d : nat) (x : positions)
    (sampled : option (nat * (nat -> nat))) : option R :=
  let flat_x := flat d x in
  let n := (np * d)%nat in
  let g flat_x_in := flat d (grad_log_psi (unflat d flat_x_in)) in
  let scan (length : nat) (vecs : nat -> nat -> R) :=
    Rsum length (fun i =>
      let v := vecs (Nat.min i (n - 1)) in
      let '(primals, tangents) := jvp g flat_x v in
      dot n primals v ^ 2 + dot n tangents v) in
  match sampled with
  | None => Some (scan n identity_row * 1)
  | Some (O, _) => None
  | Some (k, perm) =>
      let multiplier := INR n / INR (3 * k) in
      let triple_perm r := (perm (r / d) * d + r mod d)%nat in
      Some (scan (3 * k)%nat (fun r => identity_row (triple_perm r)) * multiplier)
  end.

(** kinetic.py 10-32. *)
Definition laplacian_kinetic_energy (log_psi : positions -> R) (np d : nat) (x : positions) : option R :=
  option_map (Rmult (- (1 / 2))) (laplacian_psi_over_psi (grad_x log_psi) np d x None).

(** random_particle.py 21-46. *)
Definition random_particle_kinetic_energy (log_psi : positions -> R) (nparticles np d : nat) (x : positions) (perm : nat -> nat) : option R :=
  option_map (Rmult (- (1 / 2))) (laplacian_psi_over_psi (grad_x log_psi) np d x (Some (nparticles, perm))).

Definition oadd (a b : option xr) : option xr :=
  match a, b with Some a, Some b => Some (xadd a b) | _, _ => None end.

(** random_particle.py 49-73 and 76-142: all three potentials see the permuted positions, the kinetic
    energy the original ones.  [perm] is jax.random.permutation(key, arange(n)). *)
Definition random_particle_local_energy (log_psi : positions -> R) (d nion : nat) (ion_locations : positions) (ion_charges : nat -> R)
    (nparticles : nat) (sample_kinetic sample_ei sample_ee : bool) (ei_softening ee_softening : R)
    (n : nat) (x : positions) (perm : nat -> nat) : option xr :=
  let permuted := fun i => x (perm i) in
  let kinetic := if sample_kinetic then random_particle_kinetic_energy log_psi nparticles n d x perm
                 else laplacian_kinetic_energy log_psi n d x in
  oadd (oadd (oadd (option_map Fin kinetic)
    (ion_ion_potential d nion ion_locations ion_charges n permuted))
    (electron_ion_potential d nion ion_locations ion_charges 1 ei_softening (if sample_ei then Some nparticles else None) n permuted))
    (electron_electron_potential d 1 ee_softening (if sample_ee then Some nparticles else None) n permuted).

(** runners.py 223-246 with core.py 72-95: the standard molecular local energy, kinetic + ei + ee + ii. *)
Definition molecular_local_energy (log_psi : positions -> R) (d nion : nat) (ion_locations : positions) (ion_charges : nat -> R)
    (ei_softening ee_softening : R) (n : nat) (x : positions) : option xr :=
  oadd (oadd (oadd (option_map Fin (laplacian_kinetic_energy log_psi n d x))
    (electron_ion_potential d nion ion_locations ion_charges 1 ei_softening None n x))
    (electron_electron_potential d 1 ee_softening None n x))
    (ion_ion_potential d nion ion_locations ion_charges n x).

(** ibp.py 21-46. *)
Definition gradient_squared_kinetic_energy (log_psi : positions -> R) (n d : nat) (x : positions) : R :=
  1 / 2 * Rsum n (fun i => Rsum d (fun c => grad_x log_psi x i c ^ 2)).

(** ibp.py 86-111: the auxiliary potential U. *)
Definition ibp_U (d nion : nat) (ion_locations : positions) (ion_charges : nat -> R) (include_ei : bool) (ei_softening : R)
    (include_ee : bool) (ee_softening : R) (n : nat) (x : positions) : R :=
  0
  + (if include_ei then
       - Rsum n (fun i => Rsum nion (fun j =>
            ion_charges j * compute_soft_norm d (compute_displacements x ion_locations i j) ei_softening / 2)) else 0)
  + (if include_ee then
       Rsum n (fun i => Rsum n (fun j =>
            if Nat.ltb i j then compute_soft_norm d (compute_displacements x x i j) ee_softening / 4 else 0)) else 0).

(** jax.grad(U), ibp.py 113: reverse-mode through [compute_soft_norm]'s hand-written rule.  The cotangent
    of an entry not selected by triu is 0. *)
Definition ibp_grad_U (d nion : nat) (ion_locations : positions) (ion_charges : nat -> R) (include_ei : bool) (ei_softening : R)
    (include_ee : bool) (ee_softening : R) (n : nat) (x : positions) (a c : nat) : R :=
  let back disp softening g := fst (soft_norm_bwd (compute_soft_norm d disp softening) disp softening g) c in
  (if include_ei then
     Rsum nion (fun j => back (compute_displacements x ion_locations a j) ei_softening (- (ion_charges j / 2))) else 0)
  + (if include_ee then
       let g i j := if Nat.ltb i j then 1 / 4 else 0 in
       Rsum n (fun j => back (compute_displacements x x a j) ee_softening (g a j))
       - Rsum n (fun i => back (compute_displacements x x i a) ee_softening (g i a)) else 0).

(** ibp.py 116-126. *)
Definition ibp_energy_term (log_psi : positions -> R) (d nion : nat) (ion_locations : positions) (ion_charges : nat -> R)
    (include_kinetic include_ei : bool) (ei_softening : R) (include_ee : bool) (ee_softening : R) (n : nat) (x : positions) : R :=
  - 2 * Rsum n (fun i => Rsum d (fun c => grad_x log_psi x i c *
          ibp_grad_U d nion ion_locations ion_charges include_ei ei_softening include_ee ee_softening n x i c))
  + (if include_kinetic then 1 / 2 * Rsum n (fun i => Rsum d (fun c => grad_x log_psi x i c ^ 2)) else 0).

(** ibp.py 129-197. *)
Definition ibp_local_energy (log_psi : positions -> R) (d nion : nat) (ion_locations : positions) (ion_charges : nat -> R)
    (ibp_kinetic ibp_ei : bool) (ei_softening : R) (ibp_ee : bool) (ee_softening : R) (n : nat) (x : positions) : option xr :=
  let e0 := oadd (Some (Fin (ibp_energy_term log_psi d nion ion_locations ion_charges ibp_kinetic ibp_ei ei_softening ibp_ee ee_softening n x)))
                 (ion_ion_potential d nion ion_locations ion_charges n x) in
  let e1 := if ibp_kinetic then e0 else oadd e0 (option_map Fin (laplacian_kinetic_energy log_psi n d x)) in
  let e2 := if ibp_ei then e1 else oadd e1 (electron_ion_potential d nion ion_locations ion_charges 1 ei_softening None n x) in
  if ibp_ee then e2 else oadd e2 (electron_electron_potential d 1 ee_softening None n x).

(** ** examples/hydrogen_like_atom.py *)

(** 31-49: log|psi| = - decay_rate * ||x|| for one electron. *)
Definition hydrogen_log_psi (d : nat) (decay_rate : R) (x : positions) : R :=
  - (decay_rate * sqrt (Rsum d (fun c => x O c ^ 2))).

(** 52-82: kinetic energy plus attraction to one ion at the origin. *)
Definition hydrogen_local_energy (log_psi : positions -> R) (charge : R) (d : nat) (x : positions) : option xr :=
  oadd (option_map Fin (laplacian_kinetic_energy log_psi 1 d x))
       (electron_ion_potential d 1 (fun _ _ => 0) (fun _ => charge) 1 0 None 1 x).

(** ** examples/harmonic_oscillator.py *)

(** 33-37: the loop appending the next polynomial, evaluated at one point x. *)
Fixpoint hermite_loop (x : R) (k n : nat) (H : list R) : list R :=
  match k with
  | O => H
  | S k => hermite_loop x k (S n) (H ++ [2 * x * nth (n - 1) H 0 - 2 * INR (n - 1) * nth (n - 2) H 0])
  end.

(** 12-39: [make_hermite_polynomials], one row (the polynomials at one particle's position). *)
Definition make_hermite_polynomials (nparticles : nat) (x : R) : list R :=
  if Nat.eqb nparticles 1 then [1] else hermite_loop x (nparticles - 2) 2 [1; 2 * x].

(** 97-114: one leaf of the orbitals; [kernel] is the single parameter (initially sqrt(omega)). *)
Definition harmonic_orbital (kernel : R) (nparticles j : nat) (x : R) : R :=
  exp (- ((kernel * x) ^ 2 / 2)) * nth j (make_hermite_polynomials nparticles (kernel * x)) 0.

(** 121-146 with models/antisymmetry.py [logdet_product] (sum over spins of log|det|): log|psi| of the
    spin-1/2 model with nup particles of the first spin; simplification: a zero determinant gives -inf in
    the code, here only configurations with non-zero determinants count. *)
Definition harmonic_log_psi (kernel : R) (nup n : nat) (x : positions) : R :=
  ln (Rabs (det nup (fun i j => harmonic_orbital kernel nup j (x i O)))) +
  ln (Rabs (det (n - nup) (fun i j => harmonic_orbital kernel (n - nup) j (x (nup + i)%nat O)))).

(** 148-166. *)
Definition harmonic_oscillator_potential (omega : R) (n d : nat) (x : positions) : R :=
  1 / 2 * Rsum n (fun i => Rsum d (fun c => (omega * x i c) ^ 2)).

(** 169-213 for "standard" (kinetic from the laplacian) and "ibp" (gradient squared). *)
Definition harmonic_local_energy_standard (omega : R) (log_psi : positions -> R) (n d : nat) (x : positions) : option R :=
  option_map (fun k => k + harmonic_oscillator_potential omega n d x) (laplacian_kinetic_energy log_psi n d x).
Definition harmonic_local_energy_ibp (omega : R) (log_psi : positions -> R) (n d : nat) (x : positions) : R :=
  gradient_squared_kinetic_energy log_psi n d x + harmonic_oscillator_potential omega n d x.

(** ** physics/spin.py *)

(** 118-123: the indices with the first electron of each spin exchanged. *)
Definition swapped_indices (nup i : nat) : nat := if Nat.eqb i 0 then nup else if Nat.eqb i nup then O else i.

(** 72-132: [create_local_spin_exchange]; slog_psi returns (sign, log|psi|). *)
Definition local_spin_exchange (slog_psi : positions -> xr * xr) (nup ndown : nat) (x : positions) : xr :=
  if Nat.eqb nup 0 || Nat.eqb ndown 0 then Fin 0
  else
    let '(sign_psi, log_psi) := slog_psi x in
    let '(sign_exchanged, log_exchanged) := slog_psi (fun i => x (swapped_indices nup i)) in
    xmul (xmul (Fin (- INR nup * INR ndown)) (xmul sign_psi sign_exchanged)) (xexp (xsub log_exchanged log_psi)).

(** 11-69: [create_spin_square_expectation] over walkers distributed over devices. *)
Definition spin_square_expectation (slog_psi : positions -> xr * xr) (nup ndown : nat) (nan_safe : bool) (walkers : list (list positions)) : xr :=
  xadd (Fin (1 / 4 * (INR nup - INR ndown) ^ 2 + 1 / 2 * (INR nup + INR ndown)))
       (mean_over_first_axis nan_safe (map (map (local_spin_exchange slog_psi nup ndown)) walkers)).
