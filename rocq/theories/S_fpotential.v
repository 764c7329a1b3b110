(** S_fpotential: exact Coulomb energies of machine positions. *)
From Coq Require Import ZArith Reals.
From Flocq Require Import Core IEEE754.BinarySingleNaN.
From Coq Require Import List.
Import ListNotations.
Open Scope R_scope.

Section Spec.
Variables prec emax : Z.
Notation fl := (binary_float prec emax).

Definition total (l : list R) : R := fold_right Rplus 0 l.

(** Squared softened distance, and the distance. *)
Definition squared_distance (soft : fl) (x y : list fl) : R := total (map (fun p => (B2R (fst p) - B2R (snd p)) ^ 2) (combine x y)) + B2R soft ^ 2.
Definition distance (soft : fl) (x y : list fl) : R := sqrt (squared_distance soft x y).

(** All unordered pairs of a list. *)
Fixpoint pairs {T} (l : list T) : list (T * T) := match l with [] => [] | a :: l' => map (pair a) l' ++ pairs l' end.

(** Sum of q / |e - r| over electrons e and ions (q, r); sum of 1 / |a - b| and of q q' / |r - r'| over pairs. *)
Definition exact_attraction (soft : fl) (ions : list (list fl)) (charges : list fl) (x : list (list fl)) : R :=
  total (map (fun z => B2R (fst (snd z)) / distance soft (fst z) (snd (snd z))) (list_prod x (combine charges ions))).
Definition exact_repulsion (soft : fl) (x : list (list fl)) : R := total (map (fun z => / distance soft (fst z) (snd z)) (pairs x)).
Definition exact_ion_repulsion (ions : list (list fl)) (charges : list fl) : R :=
  total (map (fun z => B2R (fst (fst z)) * B2R (fst (snd z)) / distance (B754_zero false) (snd (fst z)) (snd (snd z))) (pairs (combine charges ions))).

(** Distances whose squares neither overflow nor are too small to be represented accurately. *)
Definition apart (soft : fl) (x y : list fl) : Prop :=
  INR (length x + 1) * bpow radix2 (5 - emax) <= squared_distance soft x y <= bpow radix2 (emax - 3).

(** Positions are lists of D numbers. *)
Definition is_position (D : nat) (x : list fl) : Prop := length x = D /\ forall c, In c x -> is_finite c = true.

(** A charge: a number not below 1. *)
Definition is_charge (q : fl) : Prop := is_finite q = true /\ 1 <= B2R q.
End Spec.
