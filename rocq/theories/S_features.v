(** * Specification vocabulary for the values of features, orbitals and Jastrow factors (C73 and value theorems of C48, C50, C51, C54) *)
From Coq Require Import Reals List Arith.
From Verif Require Import XReal Rsum M_models S_models.
Import ListNotations.
Local Open Scope R_scope.

(** Componentwise difference; the softened length of a vector of length r. *)
Definition minus (a b : list R) : list R := map (fun p => fst p - snd p) (combine a b).
Definition length_of (v : list R) : R := sqrt (lsum (map (fun a => a ^ 2) v)).
Definition soft_length (s r : R) : R := sqrt (r ^ 2 + s ^ 2) - s.

(** ** Orbitals with real weights *)
Record real_orbitals := { ro_n : nat; ro_w : nat -> nat -> R; ro_b : option (nat -> R);
  ro_kappa : nat -> R; ro_A : nat -> nat -> nat -> R; ro_pi : nat -> nat -> R }.
Definition of_real (p : real_orbitals) : orbital_split :=
  {| o_norb := ro_n p; o_kernel := fun i k => Fin (ro_w p i k); o_bias := option_map (fun b k => Fin (b k)) (ro_b p);
     o_iso := fun k => Fin (ro_kappa p k); o_aniso := fun ion i k => Fin (ro_A p ion i k); o_ion := fun k ion => Fin (ro_pi p k ion) |}.
(** The linear part of orbital k for an electron with features h. *)
Definition linear_part (p : real_orbitals) (h : list R) (k : nat) : R :=
  column (ro_w p) h k + match ro_b p with Some b => b k | None => 0 end.
(** The displacement from ion a, scaled by the decay of orbital k: by a number, or by a d x d matrix. *)
Definition scaled (isotropic : bool) (p : real_orbitals) (k ion : nat) (v : list R) : list R :=
  if isotropic then map (fun a => a * ro_kappa p k) v
  else map (fun c => column (ro_A p ion) v (c * ro_n p + k)) (seq 0 (length v)).
(** The envelope of orbital k for displacements rs from the ions: sum over ions of pi exp(- softened length). *)
Definition real_envelope (isotropic : bool) (soft : R) (p : real_orbitals) (rs : list (list R)) (k : nat) : R :=
  Rsum (length rs) (fun ion => ro_pi p k ion * exp (- soft_length soft (length_of (scaled isotropic p k ion (nth ion rs []))))).
