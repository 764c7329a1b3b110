(** S_fsign: what odd and even mean on floating-point numbers, for C95. *)
From Coq Require Import ZArith Reals.
From Flocq Require Import Core IEEE754.BinarySingleNaN.
From Coq Require Import List.
Import ListNotations.
From Verif Require Import M_float S_float.
Open Scope R_scope.

Section Spec.
Variables prec emax : Z.
Context {Hp : Prec_gt_0 prec}.
Context {He : Prec_lt_emax prec emax}.
Notation fl := (binary_float prec emax).
(** The same result, the sign of a zero apart. *)
Definition same (x y : fl) : Prop := x = y \/ (exists s s', x = B754_zero s /\ y = B754_zero s').
(** One result is the negative of the other. *)
Definition opposite (x y : fl) : Prop := same y (Bopp x).
(** The inputs with all entries of the i-th negated. *)
Fixpoint flip (i : nat) (xs : list (list fl)) : list (list fl) :=
  match xs, i with
  | [], _ => []
  | x :: r, O => map (@Bopp prec emax) x :: r
  | x :: r, S j => x :: flip j r
  end.
(** Inputs that differ from the given ones by signs. *)
Definition sign_variant (xs ys : list (list fl)) : Prop := Forall2 (fun x y => y = x \/ y = map (@Bopp prec emax) x) xs ys.
(** f(x1, x2, ...) minus, or plus, the values with the first input negated, and so for every input. *)
Fixpoint odd_part (f : list (list fl) -> fl) (xs : list (list fl)) : R :=
  match xs with [] => B2R (f []) | x :: r => odd_part (fun ys => f (x :: ys)) r - odd_part (fun ys => f (map (@Bopp prec emax) x :: ys)) r end.
Fixpoint even_part (f : list (list fl) -> fl) (xs : list (list fl)) : R :=
  match xs with [] => B2R (f []) | x :: r => even_part (fun ys => f (x :: ys)) r + even_part (fun ys => f (map (@Bopp prec emax) x :: ys)) r end.
(** Adding by halves: the sum of the first half plus the sum of the second half, 2^d numbers. *)
Fixpoint by_halves (d : nat) (l : list fl) : fl :=
  match d with O => hd B754_nan l | S e => fadd prec emax (by_halves e (firstn (2 ^ e) l)) (by_halves e (skipn (2 ^ e) l)) end.
End Spec.
