(** * Specification: moving everything by one vector *)
From Coq Require Import Reals List.
From Verif Require Import XReal M_models.
Import ListNotations.
(** The particle a (a list of coordinates) moved by the vector v. *)
Definition moved (v : nat -> R) (a : list xr) : list xr := map (fun c => xadd (nth c a (Fin 0)) (Fin (v c))) (seq 0 (length a)).
(** All particles moved by the same vector. *)
Definition all_moved (v : nat -> R) (x : list (list xr)) : list (list xr) := map (moved v) x.
