(** S_fenergy: exact averages of the numbers among machine floating-point numbers. *)
From Coq Require Import ZArith Reals.
From Flocq Require Import Core IEEE754.BinarySingleNaN.
From Coq Require Import Lia List.
Import ListNotations.
From Verif Require Import M_float.
Open Scope R_scope.

(** The arithmetic mean of a list of real numbers. *)
Definition real_mean (l : list R) : R := fold_right Rplus 0 l / INR (length l).

Section Spec.
Variables prec emax : Z.
Notation fl := (binary_float prec emax).

(** The entries that are not NaN. *)
Definition numbers (l : list fl) : list fl := filter (fun x => negb (is_nan x)) l.

(** The mean over the devices of the means of [h] over the entries of each device that are not NaN. *)
Definition average (h : fl -> R) (ls : list (list fl)) : R := real_mean (map (fun l => real_mean (map h (numbers l))) ls).

(** The exact average energy, and the exact sample variance. *)
Definition exact_energy (ls : list (list fl)) : R := average (fun e => B2R e) ls.
Definition exact_variance (nchains : nat) (ls : list (list fl)) : R := average (fun e => (B2R e - exact_energy ls) ^ 2) ls * (INR nchains / INR (nchains - 1)).

(** Local energies at most 2^k in size, on at least one device, at most [n] (and at least one) on each; if NaN is not allowed, there is none. *)
Definition energies_in_range (k : Z) (n : nat) (nan_allowed : bool) (ls : list (list fl)) : Prop :=
  ls <> [] /\ INR (length ls) <= bpow radix2 prec /\ INR n <= bpow radix2 prec /\
  forall l, In l ls -> numbers l <> [] /\ (length (numbers l) <= n)%nat /\
    forall e, In e l -> (is_finite e = true /\ Rabs (B2R e) <= bpow radix2 k) \/ (nan_allowed = true /\ e = B754_nan).

(** Not negative, or +inf, or NaN. *)
Definition not_negative (x : fl) : Prop := x = B754_nan \/ x = B754_infinity false \/ (is_finite x = true /\ 0 <= B2R x).

(** [y] is between [c] and [x]. *)
Definition towards (c x y : R) : Prop := (c <= y <= x) \/ (x <= y <= c).
End Spec.

(** What clipping about [c] with width [w] does to an energy: NaN stays NaN; a number becomes a number between itself and [c], within the two machine
    numbers closest to c - w and c + w, and does not change if it is between these. *)
Definition clipped_to (prec emax : Z) {Hp : Prec_gt_0 prec} {He : Prec_lt_emax prec emax} (c w e y : binary_float prec emax) : Prop :=
  (e = B754_nan -> y = B754_nan) /\
  (is_finite e = true -> is_finite y = true /\ towards (B2R c) (B2R e) (B2R y) /\ Bleb (fsub prec emax c w) y = true /\ Bleb y (fadd prec emax c w) = true /\
    (Bleb (fsub prec emax c w) e = true -> Bleb e (fadd prec emax c w) = true -> B2R y = B2R e)).
