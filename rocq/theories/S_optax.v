(** * Specification vocabulary for the configured optimisers (C74) *)
From Coq Require Import String Reals List.
From Verif Require Import Rsum M_optax.
Import ListNotations.
Local Open Scope R_scope.

(** The two documented learning-rate schedules, as functions of the number of updates done before. *)
Definition known_schedule (s : schedule_cfg) : Prop := sc_type s = "constant"%string \/ sc_type s = "inverse_time"%string.
Definition rate (s : schedule_cfg) (t : nat) : R :=
  if String.eqb (sc_type s) "constant" then sc_rate s else sc_rate s / (1 + sc_decay s * INR t).

(** The names of the sections of the configuration. *)
Definition section_names : list string := ["kfac"; "adam"; "sgd"; "sr"; "spring"]%string.

(** The k-th component of the gradient seen by update t. *)
Definition grad_at (inputs : list seen) (t k : nat) : R := nth t (map (fun i => in_grad i k) inputs) 0.

(** Discounted sum of the values 0..t, the latest with weight 1; and the average with the same weights. *)
Definition discounted (b : R) (t : nat) (f : nat -> R) : R := Rsum (S t) (fun s => b ^ (t - s) * f s).
Definition discounted_mean (b : R) (t : nat) (f : nat -> R) : R := discounted b t f / discounted b t (fun _ => 1).
