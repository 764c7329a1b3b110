(** S_fjastrow: decaying Jastrow factors in exact arithmetic. *)
From Coq Require Import ZArith Reals.
From Flocq Require Import Core IEEE754.BinarySingleNaN.
From Coq Require Import List.
Import ListNotations.
From Verif Require Import M_float S_float S_fpotential S_forbital.
Open Scope R_scope.

Section Spec.
Variables prec emax : Z.
Notation fl := (binary_float prec emax).

(** |rate| times the sum of all electron-ion distances; the mean length of the rows. *)
Definition exact_decay (rate : fl) (r_ei : list (list (list fl))) : R := Rabs (B2R rate) * total (map (vlength prec emax) (concat r_ei)).
Definition mean_length (rows : list (list fl)) : R := total (map (vlength prec emax) rows) / INR (length rows).

(** A log Jastrow that decays: -inf, or a number that is not positive. *)
Definition decaying (x : fl) : Prop := x = B754_infinity true \/ (is_finite x = true /\ B2R x <= 0).
(** A Jastrow factor: a number between 0 and 1. *)
Definition is_factor (x : fl) : Prop := is_finite x = true /\ 0 <= B2R x <= 1.
End Spec.
