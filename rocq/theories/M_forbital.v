(** M_forbital: exponential envelopes and orbitals on machine floating-point numbers.

    Models, on the floating-point numbers of M_float (any format, rounding to nearest even, subnormal numbers kept):
    - vmcnet/models/jastrow.py:15-31 [_isotropy_on_leaf];
    - vmcnet/models/equivariance.py:696-731 [_compute_exponential_envelopes_on_leaf] and 758-851 [FermiNetOrbitalLayer].

    Simplifications.  One electron; the anisotropic scaling is not included (its output is a list of vectors, to which [envelope] applies).  jnp.sum is any order of additions
    ([is_sum] of M_float); jnp.sqrt is the correctly rounded square root; a square is one rounded multiplication.  The linear part of an orbital is a parameter. *)
From Coq Require Import ZArith Reals.
From Flocq Require Import Core IEEE754.BinarySingleNaN.
From Coq Require Import Lia List Bool Arith.
Import ListNotations.
From Verif Require Import M_float.

Section Orbital.
Variables prec emax : Z.
Context {Hp : Prec_gt_0 prec}.
Context {He : Prec_lt_emax prec emax}.
Notation fl := (binary_float prec emax).
(** jnp.exp and jnp.sum. *)
Variables (fexp : fl -> fl) (fsum : list fl -> fl).

(** jastrow.py:28: a displacement times the decay rate of an orbital. *)
Definition isotropic (rate : fl) (v : list fl) : list fl := map (fun c => fmul prec emax c rate) v.
(** equivariance.py:718: jnp.linalg.norm. *)
Definition norm (v : list fl) : fl := Bsqrt mode_NE (fsum (map (fun c => fmul prec emax c c) v)).
(** equivariance.py:719-721. *)
Definition softened (soft d : fl) : fl := fsub prec emax (Bsqrt mode_NE (fadd prec emax (fmul prec emax d d) (fmul prec emax soft soft))) soft.
(** equivariance.py:722, 726-728: the weighted decay for one ion. *)
Definition decay (soft : fl) (vw : list fl * fl) : fl := fmul prec emax (fexp (Bopp (softened soft (norm (fst vw))))) (snd vw).
(** equivariance.py:718-731, for the scaled displacements from the ions and the weights of the ions. *)
Definition envelope (soft : fl) (vs : list (list fl)) (ws : list fl) : fl := fsum (map (decay soft) (combine vs ws)).
(** equivariance.py:830-851, isotropic: the orbitals of one electron; for each one its linear part, decay rate and ion weights. *)
Definition orbitals (soft : fl) (displacements : list (list fl)) (params : list (fl * (fl * list fl))) : list fl :=
  map (fun p => fmul prec emax (fst p) (envelope soft (map (isotropic (fst (snd p))) displacements) (snd (snd p)))) params.
End Orbital.
