(** * Specification vocabulary: Metropolis steps on continuous positions (C18) *)
From Coq Require Import Reals List.
From Verif Require Import XReal M_mcmc S_mcmc.
Import ListNotations.
Local Open Scope R_scope.

(** [integral] integrates a function over all positions; [q x y] is the density of proposing y from x, [a x y] the probability of accepting it.
    If the walker's position has density p before a step, it has this density after it: the walkers that arrive at y, and the walkers at y that
    do not leave. *)
Definition step_density {X} (integral : (X -> R) -> R) (q a : X -> X -> R) (p : X -> R) (y : X) : R :=
  integral (fun x => p x * (q x y * a x y)) + p y * (1 - integral (fun x => q y x * a y x)).
Fixpoint density_after {X} (integral : (X -> R) -> R) (q a : X -> X -> R) (steps : nat) (p : X -> R) : X -> R :=
  match steps with O => p | S k => step_density integral q a (density_after integral q a k p) end.

(** The noise that moves x to y with width s, and its density in terms of y. *)
Definition noise (s : R) (x y : list R) : list R := zipw (fun a b => (b - a) / s) x y.
Definition proposal_density (s : R) (x y : list R) : R := normal_density (noise s x y) / s ^ length (noise s x y).
