(** * Model of the assembly of a job's energy from its configuration (vmcnet/train/runners.py 222-357)

    Same simplifications as in M_physics.v (one walker at a time, exact finite arithmetic, analytic
    derivatives).  A key enters only through the permutation of the electrons drawn from it. *)
From Coq Require Import Reals String List Bool Arith.
From Verif Require Import XReal M_distribute M_energy M_physics.
Import ListNotations.
Local Open Scope R_scope.
Local Open Scope string_scope.

(** The arguments ion_pos, ion_charges, ei_softening, ee_softening of
    [_assemble_mol_local_energy_fn], with the shapes of the arrays (d coordinates, nion ions, nelec
    electrons). *)
Record molecule := { mol_d : nat; mol_nion : nat; mol_nelec : nat; mol_locs : positions; mol_charges : nat -> R;
                     mol_ei_softening : R; mol_ee_softening : R }.

(** The fields of config.vmc / config.eval (default_config.py 292-407) that determine the energy. *)
Record energy_config := { ec_type : string; ec_ibp_parts : list string; ec_sample_parts : list string; ec_nparticles : nat;
                          ec_clip_threshold : R; ec_clip_center : string; ec_nan_safe : bool; ec_nchains : nat }.

(** Python's [part in parts] for a tuple of strings. *)
Definition part_in (part : string) (parts : list string) : bool := existsb (String.eqb part) parts.

(** A local energy as the rest of the program calls it: with (params, x) or with (params, x, key). *)
Inductive local_energy_fn :=
| Plain (f : positions -> option xr)
| Keyed (f : positions -> (nat -> nat) -> option xr).

(** runners.py 223-281: [_assemble_mol_local_energy_fn]; None: ValueError (unsupported type). *)
Definition assemble_mol_local_energy_fn (m : molecule) (c : energy_config) (log_psi : positions -> R) : option local_energy_fn :=
  if String.eqb (ec_type c) "standard" then
    Some (Plain (molecular_local_energy log_psi (mol_d m) (mol_nion m) (mol_locs m) (mol_charges m)
                   (mol_ei_softening m) (mol_ee_softening m) (mol_nelec m)))
  else if String.eqb (ec_type c) "ibp" then
    Some (Plain (ibp_local_energy log_psi (mol_d m) (mol_nion m) (mol_locs m) (mol_charges m)
                   (part_in "kinetic" (ec_ibp_parts c)) (part_in "ei" (ec_ibp_parts c)) (mol_ei_softening m)
                   (part_in "ee" (ec_ibp_parts c)) (mol_ee_softening m) (mol_nelec m)))
  else if String.eqb (ec_type c) "random_particle" then
    Some (Keyed (random_particle_local_energy log_psi (mol_d m) (mol_nion m) (mol_locs m) (mol_charges m) (ec_nparticles c)
                   (part_in "kinetic" (ec_sample_parts c)) (part_in "ei" (ec_sample_parts c)) (part_in "ee" (ec_sample_parts c))
                   (mol_ei_softening m) (mol_ee_softening m) (mol_nelec m)))
  else None.

(** Where the assembled function raises ZeroDivisionError when it is traced: n / nparticles with
    nparticles = 0 (core.py 157, potential.py 117 and 163), independent of the positions. *)
Definition traces (f : local_energy_fn) : bool :=
  match (match f with Plain f => f (fun _ _ => 0) | Keyed f => f (fun _ _ => 0) (fun i => i) end) with
  | Some _ => true | None => false
  end.

(** Calling it, once traced (the default NaN is not reached after [traces]). *)
Definition call {K} (perm_of : K -> nat -> nat) (f : local_energy_fn) (x : positions) (key : option K) : xr :=
  match (match f, key with
         | Plain f, _ => f x
         | Keyed f, Some k => f x (perm_of k)
         | Keyed _, None => None
         end) with Some v => v | None => NaN end.

(** runners.py 325-357: [_get_energy_val_and_grad_fn] applied to (params, key, positions).
    [log_psi p x] is log|psi|, [dlog_psi p x j] its derivative in parameter j; positions on nodes of the
    wavefunction are not modelled.  [dlocal_energy]: jax.grad of the local energy in the parameters
    (only used for "ibp"). *)
Definition molecule_val_and_grad {P K} (perm_of : K -> nat -> nat) (split_n : K -> nat -> list K)
    (log_psi : P -> positions -> R) (dlog_psi : P -> positions -> nat -> R) (dlocal_energy : P -> positions -> nat -> xr)
    (m : molecule) (c : energy_config) (p : P) (keys : list K) (pos : list (list positions)) : result (aux_data * xr * (nat -> list xr)) :=
  match assemble_mol_local_energy_fn m c (log_psi p) with
  | None => Err BadLocalEnergyType
  | Some f =>
      if traces f then
        energy_val_and_grad (fun p x => Fin (log_psi p x)) (fun p x j => Fin (dlog_psi p x j))
          (fun _ x key => call perm_of f x key) dlocal_energy (ec_nchains c)
          (get_clipping_fn (ec_clip_threshold c) (ec_clip_center c)) (ec_nan_safe c) split_n (ec_type c) p keys pos
      else Err ZeroDivision
  end.
