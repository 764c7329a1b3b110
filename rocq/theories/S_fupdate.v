(** S_fupdate: what is meant by the length of an update, by shrinking it, and by updates that the arithmetic can handle. *)
From Coq Require Import ZArith Reals.
From Flocq Require Import Core IEEE754.BinarySingleNaN.
From Coq Require Import Lia List Bool Arith.
Import ListNotations.
From Verif Require Import M_float S_float S_fpotential.
Open Scope R_scope.

Section Spec.
Variables prec emax : Z.
Context {Hp : Prec_gt_0 prec}.
Context {He : Prec_lt_emax prec emax}.
Notation fl := (binary_float prec emax).
Notation update := (list (list fl)).

(** Something holds of every entry of two families of updates (one per device), which have the same shape. *)
Definition entrywise (rel : fl -> fl -> Prop) (ts us : list update) : Prop := Forall2 (Forall2 (Forall2 rel)) ts us.

(** Every entry is a number. *)
Definition all_numbers (ts : list update) : Prop := forall t l x, In t ts -> In l t -> In x l -> is_finite x = true.

(** The square of the Euclidean length of an update, and its mean over the devices. *)
Definition squared_length (t : update) : R := total (map (fun x : fl => B2R x ^ 2) (concat t)).
Definition mean_squared_length (ts : list update) : R := total (map squared_length ts) / INR (length ts).

(** By how much an update of squared length s is shrunk to satisfy the constraint c. *)
Definition shrink (c s : R) : R := if Rle_dec s c then 1 else sqrt (c / s).

(** Every update has at most n entries and leaves together, and there are at most n devices; the constraint is not tiny; the squared lengths
    overflow neither themselves nor relative to the constraint. *)
Definition workable (n : nat) (c : R) (ts : list update) : Prop :=
  (forall t, In t ts -> (length (concat t) + length t <= n)%nat) /\ (length ts <= n)%nat /\ ts <> [] /\
  INR (4 * (2 * n + 8)) * unit_roundoff prec <= 1 /\
  INR n * bpow radix2 (6 - emax) <= c /\
  (forall t, In t ts -> squared_length t <= bpow radix2 (emax - 4) / INR n /\ squared_length t <= c * bpow radix2 (emax - 6)).

(** The shape of an update: the sizes of its leaves.  The entry at place l of leaf j. *)
Definition shape (t : update) : list nat := map (@length fl) t.
Definition entry (t : update) (j l : nat) : option fl := match nth_error t j with Some a => nth_error a l | None => None end.
End Spec.
