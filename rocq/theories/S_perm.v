(** * Specification vocabulary: renumberings and orders *)
From Coq Require Import List Arith Permutation.
Import ListNotations.

(** A renumbering of 0..n-1. *)
Definition renumbering (n : nat) (s : nat -> nat) : Prop := Permutation (map s (seq 0 n)) (seq 0 n).

(** All orders of the elements of a list, and of 0..n-1. *)
Fixpoint insertions {A} (a : A) (l : list A) : list (list A) :=
  match l with
  | [] => [[a]]
  | b :: r => (a :: l) :: map (cons b) (insertions a r)
  end.
Fixpoint orders {A} (l : list A) : list (list A) :=
  match l with
  | [] => [[]]
  | a :: r => flat_map (insertions a) (orders r)
  end.
