(** * Specification vocabulary for the antisymmetry properties (C44-C48) *)
From Coq Require Import Reals List Arith Permutation Sorted.
From Verif Require Import XReal M_slog M_models S_models.
Import ListNotations.

(** Lexicographic order of orders of equal length. *)
Fixpoint lex_lt (p q : list nat) : Prop :=
  match p, q with
  | a :: p', b :: q' => a < b \/ (a = b /\ lex_lt p' q')
  | _, _ => False
  end.

(** Sign of a renumbering restricted to one spin population. *)
Definition spin_sign (sizes : list nat) (s : nat -> nat) (b : nat) : R :=
  sign_of_list (map s (filter (fun i => Nat.eqb (spin_of sizes i) b) (seq 0 (list_sum sizes)))).

(** A sign-log number with its sign multiplied by g, the logarithm kept. *)
Definition times_sign (g : R) (p : xr * xr) : xr * xr := (xmul (Fin g) (fst p), snd p).

(** Lists of signs. *)
Definition signs (l : list R) : Prop := Forall (fun s => s = 1%R \/ s = (-1)%R) l.
Definition product (l : list R) : R := fold_right Rmult 1%R l.

(** Entry (i, j) of a real matrix given as a list of rows; deleting one row and the first column. *)
Definition entry (m : list (list R)) (i j : nat) : R := nth j (nth i m []) 0%R.
Definition square_of (n : nat) (m : list (list R)) : Prop := length m = n /\ Forall (fun r => length r = n) m.

(** [ps] lists every order of 0..n-1 exactly once. *)
Definition all_orders (n : nat) (ps : list (list nat)) : Prop := NoDup ps /\ forall p, In p ps <-> Permutation p (seq 0 n).
(** The determinant as the signed sum over all orders (Leibniz). *)
Definition leibniz (n : nat) (m : list (list R)) (ps : list (list nat)) : R :=
  Rsum.lsum (map (fun p => (sign_of_list p * product (map (fun i => entry m i (nth i p O)) (seq 0 n)))%R) ps).
