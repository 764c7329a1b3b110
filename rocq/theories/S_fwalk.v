(** S_fwalk: what is meant by the acceptance probability, draws and step widths on machine floating-point numbers. *)
From Coq Require Import ZArith Reals.
From Flocq Require Import Core IEEE754.BinarySingleNaN.
From Coq Require Import Lia List.
Import ListNotations.
From Verif Require Import M_float S_float M_fwalk.
Open Scope R_scope.

Section Spec.
Variables prec emax : Z.
Context {Hp : Prec_gt_0 prec}.
Context {He : Prec_lt_emax prec emax}.
Notation fl := (binary_float prec emax).

(** The log of an amplitude, a number whose double does not overflow. *)
Definition log_in_range (a : fl) : Prop := is_finite a = true /\ Rabs (B2R a) <= bpow radix2 (emax - 2).

(** The exact ratio |psi'|^2 / |psi|^2 for log |psi| = a and log |psi'| = p (p = -inf: psi' = 0), and the exact acceptance probability. *)
Definition exact_ratio (a p : fl) : R := if is_finite p then exp (2 * (B2R p - B2R a)) else 0.
Definition exact_acceptance (a p : fl) : R := Rmin 1 (exact_ratio a p).

(** A draw of jax.random.uniform: a number in [0, 1). *)
Definition uniform_number (x : fl) : Prop := is_finite x = true /\ 0 <= B2R x < 1.

(** The step width is positive: a positive number or +inf. *)
Definition positive_width (s : fl) : Prop := (is_finite s = true /\ 0 < B2R s) \/ s = B754_infinity false.

(** A number in [0, 1]. *)
Definition probability (x : fl) : Prop := is_finite x = true /\ 0 <= B2R x <= 1.
End Spec.

Section Runs.
Variables prec emax : Z.
Context {Hp : Prec_gt_0 prec}.
Context {He : Prec_lt_emax prec emax}.
Notation fl := (binary_float prec emax).

(** Every walker has its random numbers in every step, and the uniform draws are numbers in [0, 1). *)
Definition complete_draws (ws : list (list (walker prec emax))) (dss : list (list (list (draw prec emax)))) : Prop :=
  forall ds, In ds dss -> Forall2 (fun w d => length w = length d) ws ds /\ forall d x, In d ds -> In x d -> uniform_number prec emax (d_uniform _ _ x).

(** Walker j of device i. *)
Definition walker_at (ws : list (list (walker prec emax))) (i j : nat) : option (walker prec emax) :=
  match nth_error ws i with Some l => nth_error l j | None => None end.

(** The amplitude kept with a walker is that of its position, and its log is a number in range. *)
Definition well_placed (psi : list fl -> fl) (w : walker prec emax) : Prop := w_amp _ _ w = psi (w_pos _ _ w) /\ log_in_range prec emax (w_amp _ _ w).

(** Which walkers moved, step by step. *)
Fixpoint masks_of (fe : fl -> fl) (fs : list fl -> fl) (psi : list fl -> fl) (logabs : bool) (nmoves : nat) (adj : fl -> fl -> fl) (st : list (list (walker prec emax)) * metadata prec emax)
  (dss : list (list (list (draw prec emax)))) : list (list (list bool)) :=
  match dss with
  | [] => []
  | ds :: r => zip_with (zip_with (decision _ _ fe psi logabs (m_std _ _ (snd st)))) (fst st) ds :: masks_of fe fs psi logabs nmoves adj (step _ _ fe fs psi logabs nmoves adj st ds) r
  end.
End Runs.
