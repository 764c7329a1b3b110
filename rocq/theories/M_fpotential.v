(** M_fpotential: Coulomb potentials on machine floating-point numbers.

    Models, on the floating-point numbers of M_float (any format, rounding to nearest even, subnormal numbers kept):
    - vmcnet/physics/potential.py:11-21 [compute_displacements], 29-48 [compute_soft_norm];
    - vmcnet/physics/potential.py:85-128 [create_electron_ion_coulomb_potential],
      131-175 [create_electron_electron_coulomb_potential], both with nparticles=None;
    - vmcnet/physics/potential.py:76-83 [_get_ion_ion_info] and 178-207 [create_ion_ion_coulomb_potential];
    - vmcnet/physics/core.py:72-94 [combine_local_energy_terms] on the four terms of vmcnet/train/runners.py:233-245.

    Simplifications.  One walker; a position is the list of its coordinates.  jnp.sum is any order of additions ([is_sum] of M_float); jnp.sqrt is the
    correctly rounded square root.  The kinetic energy is a parameter. *)
From Coq Require Import ZArith Reals.
From Flocq Require Import Core IEEE754.BinarySingleNaN.
From Coq Require Import Lia List Bool Arith.
Import ListNotations.
From Verif Require Import M_float M_fwalk.

Section Potential.
Variables prec emax : Z.
Context {Hp : Prec_gt_0 prec}.
Context {He : Prec_lt_emax prec emax}.
Notation fl := (binary_float prec emax).
Notation fadd := (fadd prec emax). Notation fsub := (fsub prec emax). Notation fmul := (fmul prec emax).
Notation fdiv := (fdiv prec emax). Notation fzero := (fzero prec emax). Notation fone := (fone prec emax).
(** jnp.sum. *)
Variable fs : list fl -> fl.

(** potential.py:21, one pair. *)
Definition displacement (x y : list fl) : list fl := zip_with fsub x y.

(** potential.py:46-48. *)
Definition soft_norm (soft : fl) (d : list fl) : fl := Bsqrt mode_NE (fadd (fs (map (fun c => fmul c c) d)) (fmul soft soft)).

(** potential.py:116, 121-126: the sum runs over electrons and ions at once; the multiplier is 1.0. *)
Definition attraction (strength soft : fl) (ions : list (list fl)) (charges : list fl) (x : list (list fl)) : fl :=
  let terms := map (fun e => zip_with (fun q r => fdiv q (soft_norm soft (displacement e r))) charges ions) x in
  fmul (fmul (Bopp strength) (fs (concat terms))) fone.

(** potential.py:165, 200: jnp.triu(m, k=1): everything on and below the diagonal is replaced by zero. *)
Fixpoint triu_from (i : nat) (rows : list (list fl)) : list (list fl) :=
  match rows with
  | [] => []
  | r :: rs => (repeat fzero (Nat.min (S i) (length r)) ++ skipn (S i) r) :: triu_from (S i) rs
  end.
Definition triu (rows : list (list fl)) : list (list fl) := triu_from 0 rows.

(** potential.py:160-166. *)
Definition repulsion (strength soft : fl) (x : list (list fl)) : fl :=
  fs (concat (triu (map (fun a => map (fun b => fdiv strength (soft_norm soft (displacement a b))) x) x))).

(** potential.py:80-82, 195-201; the default softening term is 0.0. *)
Definition ion_repulsion (ions : list (list fl)) (charges : list fl) : fl :=
  let l := combine charges ions in
  fs (concat (triu (map (fun a => map (fun b => fdiv (fmul (fst a) (fst b)) (soft_norm fzero (displacement (snd a) (snd b)))) l) l))).

(** core.py:89-92, runners.py:233-245. *)
Definition local_energy (kinetic ei_soft ee_soft : fl) (ions : list (list fl)) (charges : list fl) (x : list (list fl)) : fl :=
  fold_left fadd [attraction fone ei_soft ions charges x; repulsion fone ee_soft x; ion_repulsion ions charges] kinetic.
End Potential.
