(** * Vocabulary for the walkers a job starts with (C75) *)
From Coq Require Import Reals List Arith.
From Verif Require Import XReal M_mcmc S_mcmc M_start.
Import ListNotations.
Local Open Scope R_scope.

(** What jax.random.choice promises: as many indices as asked for, all in range, pairwise different when drawn without
    replacement. *)
Record good_choice {K} (choice : choice_fn K) : Prop := {
  choice_length : forall k n m rep p, length (choice k n m rep p) = m;
  choice_range : forall k n m rep p a, (0 < n)%nat -> rep = true \/ (m <= n)%nat -> In a (choice k n m rep p) -> (a < n)%nat;
  choice_distinct : forall k n m p, (m <= n)%nat -> NoDup (choice k n m false p) }.

(** Walker [x]: electron [e] sits at ion [assign e] plus [width] times its own noise, coordinate by coordinate
    ([d] coordinates per particle). *)
Definition around_ions (width : R) (ions : list (list R)) (d nelec : nat) (assign : list nat) (noise x : list R) : Prop :=
  length x = (nelec * d)%nat /\ length noise = (nelec * d)%nat /\
  length assign = nelec /\ Forall (fun a => (a < length ions)%nat) assign /\
  forall e c, (e < nelec)%nat -> (c < d)%nat ->
    nth (e * d + c) x 0 = nth c (nth (nth e assign O) ions []) 0 + width * nth (e * d + c) noise 0.

(** The walkers of all devices are in order: every device holds [w] walkers of [n] coordinates, their amplitudes are those
    of parameters [p], and all devices have the same positive step width. *)
Definition in_order {P} (psi : P -> list R -> xr) (ndev w n : nat) (p : P) (datas : list (padata move_metadata)) : Prop :=
  length datas = ndev /\
  Forall (fun d => length (pos d) = w /\ Forall (fun x => length x = n) (pos d) /\ consistent psi p d) datas /\
  exists s, 0 < s /\ Forall (fun d => std_move (meta d) = s) datas.
